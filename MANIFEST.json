{
 "claims": [
  {
   "property": "C01",
   "status": "proved",
   "theorems": [
    "C01_hex_accepts",
    "C01_denotation",
    "C01_hex_rejects",
    "C01_hex_prints",
    "C01_hex_roundtrip"
   ],
   "note": "Strings are byte lists; the text \"0x\" without digits is accepted as zero."
  },
  {
   "property": "C02",
   "status": "proved",
   "theorems": [
    "C02_dec_accepts",
    "C02_dec_roundtrip",
    "C02_dec_overflow"
   ],
   "note": "num-bigint's decimal grammar (leading '+', '_' separators) is modelled from its documentation."
  },
  {
   "property": "C03",
   "status": "proved",
   "theorems": [
    "C03_slice",
    "C03_bytes",
    "C03_slice_rejects",
    "C03_bits",
    "C03_path",
    "C03_path_of_bits",
    "C03_more_than_251_bits",
    "C03_from_integers",
    "C03_to_integers",
    "C03_le_bytes"
   ],
   "note": ""
  },
  {
   "property": "C04",
   "status": "proved",
   "theorems": [
    "C04_one_representation",
    "C04_add",
    "C04_sub",
    "C04_neg",
    "C04_mul",
    "C04_square",
    "C04_tests",
    "C04_inverse",
    "C04_moduli_prime"
   ],
   "note": "Both fields, const and non-const variants. Primality of both moduli is proved in Coq (Proth and Pocklington certificates)."
  },
  {
   "property": "C05",
   "status": "proved",
   "theorems": [
    "C05_from_bytes",
    "C05_to_bytes",
    "C05_from_native",
    "C05_felt_round_trip",
    "C05_mont_round_trip",
    "C05_felt_add",
    "C05_felt_sub",
    "C05_scalar_of_felt",
    "C05_scalar_of_mont"
   ],
   "note": "The hex digit loop of MontFelt::from_hex is not modelled."
  },
  {
   "property": "C06",
   "status": "proved",
   "theorems": [
    "C06_incremental_is_one_shot",
    "C06_sponge",
    "C06_padding_injective",
    "C06_padding_even"
   ],
   "note": "For any field element type with a right-neutral zero and any permutation."
  },
  {
   "property": "C07",
   "status": "proved",
   "theorems": [
    "C07_fold",
    "C07_single",
    "C07_overflow",
    "C07_binding"
   ],
   "note": "For any two-to-one hash."
  },
  {
   "property": "C08",
   "status": "proved",
   "theorems": [
    "C08_tree_is_a_map",
    "C08_stored_tree_is_a_map"
   ],
   "note": "Scripts of set/get on the empty tree and on a tree loaded at any readable block of any database reached by blocks, prunings and reorgs; heights 1..251, any hash function."
  },
  {
   "property": "C09",
   "status": "proved",
   "theorems": [
    "C09_root_depends_on_contents",
    "C09_stored_root"
   ],
   "note": "The root equals a root function defined from the contents only."
  },
  {
   "property": "C10",
   "status": "proved",
   "theorems": [
    "C10_root_binds_contents"
   ],
   "note": "Under collision freedom of the explicitly listed hash computations of the two trees."
  },
  {
   "property": "C11",
   "status": "proved",
   "theorems": [
    "C11_reload",
    "C11_committed_roots",
    "C08_stored_tree_is_a_map"
   ],
   "note": "All histories of blocks; nodes are stored in and read from the modelled node table."
  },
  {
   "property": "C12",
   "status": "proved",
   "theorems": [
    "C12_proofs_complete"
   ],
   "note": "The verifier is the specification function check_proof; the code's own verifier exists only in tests."
  },
  {
   "property": "C13",
   "status": "proved",
   "theorems": [
    "C13_proofs_sound"
   ],
   "note": "Any list of nodes; under collision freedom of the listed computations."
  },
  {
   "property": "C14",
   "status": "proved",
   "theorems": [
    "C14_removed_nodes"
   ],
   "note": "Removed nodes are exactly the old nodes the new version does not reach."
  },
  {
   "property": "C15",
   "status": "proved",
   "theorems": [
    "C15_window_readable",
    "C15_reorg_partial",
    "C15_repeated_reorg_refuted"
   ],
   "note": "Proved for all sequences of blocks and prunings, which is what C15 quantifies over. With reorgs it is partial, and refuted for two reorgs in a row (the code's reverse updates ignore earlier reverts): see DESIGN.md findings."
  },
  {
   "property": "C16",
   "status": "proved",
   "theorems": [
    "C16_round_trip",
    "C16_longest_path",
    "C16_longer_path_refuted",
    "C16_distinct",
    "C16_removed_round_trip"
   ],
   "note": "bincode 2.0.1 and bitvec are modelled by their documented behaviour; unused bits of the last path byte are arbitrary. The refutation concerns 256-bit paths, which a tree of height 251 does not have."
  },
  {
   "property": "C17",
   "status": "proved",
   "theorems": [
    "C17_is_trie_root",
    "C17_lists_bind",
    "C17_zero_item_refuted",
    "C17_transactions_function",
    "C17_events_function",
    "C17_receipts_total",
    "C17_transactions_bind",
    "C17_events_bind",
    "C17_receipts_bind",
    "C17_empty_signature_refuted"
   ],
   "note": "Hash functions are arbitrary; binding is relative to no collision among the hashes computed for the two lists. Zero item hashes are invisible (C17_zero_item_refuted), and between 0.13.2 and 0.13.4 an empty signature equals a signature of one zero (C17_empty_signature_refuted)."
  },
  {
   "property": "C18",
   "status": "proved",
   "theorems": [
    "C18_lookup_by_number",
    "C18_lookup_by_hash",
    "C18_lookup_latest",
    "C18_unknown_hash"
   ],
   "note": "Storage, nonce, class hash, contract existence and class declarations, at every kept block of every orderly event sequence, with reorgs, failures and pruning."
  },
  {
   "property": "C19",
   "status": "proved",
   "theorems": [
    "C19_pruning_preserves_lookups"
   ],
   "note": ""
  },
  {
   "property": "C20",
   "status": "partial",
   "theorems": [
    "C20_reorg_restores_partial",
    "C20_no_trace_partial",
    "C20_casm_refuted",
    "C20_casm_redeclared_refuted"
   ],
   "note": "All contract state and class declarations; refuted for compiled class hashes, whose rows survive the purge of their block."
  },
  {
   "property": "C21",
   "status": "proved",
   "theorems": [
    "C21_reverse_restores",
    "C21_deleted",
    "C21_forward",
    "C21_system_leaf_refuted",
    "C21_class_removal_refuted",
    "C21_class_order_refuted",
    "C21_system_contracts"
   ],
   "note": "Class, nonce and storage of every contract. Refutations: a system contract whose storage became empty keeps a leaf forward but not in reverse; reverse updates of Sierra classes may use orphaned or replaced compiled hashes."
  },
  {
   "property": "C22",
   "status": "partial",
   "theorems": [
    "C22_reads_back_partial",
    "C22_archive",
    "C22_not_stored",
    "C22_lowest",
    "C22_lowest_refuted",
    "C22_declared_refuted",
    "C22_migrated_refuted"
   ],
   "note": "All stored blocks whose parent is stored, hence all blocks of an archive node; the lowest block left by pruning cannot be read (C22_lowest_refuted). Declared classes do not read back (two refutations)."
  },
  {
   "property": "C23",
   "status": "proved",
   "theorems": [
    "C23_pointer_ancestor",
    "C23_pointer_stored",
    "C23_pruned_refuted"
   ],
   "note": "With pruning the block pointed to may itself have been pruned (C23_pruned_refuted)."
  },
  {
   "property": "C24",
   "status": "proved",
   "theorems": [
    "C24_contiguous",
    "C24_duplicates_ignored",
    "C24_announced",
    "C24_finalized_duplicate_refuted",
    "C24_finalized_gap_refuted"
   ],
   "note": "Proved for downloaded blocks, duplicates and reorgs. The two refutations concern blocks finalized by consensus, which the consumer does not count."
  },
  {
   "property": "C25",
   "status": "partial",
   "theorems": [
    "C25_class",
    "C25_nonce_partial",
    "C25_storage_partial",
    "C25_declared",
    "C25_casm",
    "C25_wellformed",
    "C25_nonce_refuted",
    "C25_storage_refuted",
    "C25_migrated_refuted"
   ],
   "note": "The claim is false of the code for a contract deployed earlier and replaced later, and for migrated classes; those cases are refuted with witnesses, the rest is proved."
  },
  {
   "property": "C26",
   "status": "partial",
   "theorems": [
    "C26_length",
    "C26_representation_independent",
    "C26_data_length_partial",
    "C26_data_length_refuted",
    "C26_empty_partial"
   ],
   "note": "StateUpdateData's length and is_empty ignore migrated classes (refuted); equal otherwise."
  },
  {
   "property": "C27",
   "status": "proved",
   "theorems": [
    "C27_canonical_and_injective",
    "C27_binding"
   ],
   "note": "Assumes no contract has storage writes both as ordinary and as system contract."
  },
  {
   "property": "C28",
   "status": "proved",
   "theorems": [
    "C28_inserted_keys_are_found",
    "C28_only_bits_of_keys"
   ],
   "note": "For every filter size and every pair of base hash functions."
  },
  {
   "property": "C29",
   "status": "proved",
   "theorems": [
    "C29_no_false_negatives",
    "C29_reported_blocks",
    "C29_insert_in_range"
   ],
   "note": "For every filter size, range size and pair of base hash functions; compression of stored bitmaps is taken to be lossless."
  },
  {
   "property": "C30",
   "status": "proved",
   "theorems": [
    "C30_candidates_cover_matching",
    "C30_events_in_range",
    "C30_more_than_16_groups_refuted"
   ],
   "note": "For up to 16 key groups (the API limit). Beyond the limit the storage function loses events (refuted); the RPC methods reject such requests."
  },
  {
   "property": "C31",
   "status": "partial",
   "theorems": [
    "C31_paging_exact_partial",
    "C31_paging_with_pruning_refuted"
   ],
   "note": "Proved for every history, query, page size and scan limit without blockchain pruning. With blockchain pruning enabled it is false: the block of the token is replaced by the earliest block (refuted)."
  },
  {
   "property": "C32",
   "status": "partial",
   "theorems": [
    "C32_filters_cover_chain_partial",
    "C32_crash_after_reorg_refuted",
    "C32_reorg_of_genesis_refuted",
    "C32_rolled_back_insert_refuted",
    "C32_stale_snapshot_refuted"
   ],
   "note": "Proved for all histories in which no crash follows a reorg without an orderly restart of a non-empty chain in between; false otherwise (refuted), for rolled back insertions (refuted) and for readers with an older snapshot (refuted)."
  },
  {
   "property": "C33",
   "status": "partial",
   "theorems": [
    "C33_pages_exact_partial",
    "C33_from_future_block_refuted",
    "C33_from_pre_confirmed_number_refuted",
    "C33_to_pre_latest_number_refuted",
    "C33_to_future_block_refuted",
    "C33_page_size_zero_refuted"
   ],
   "note": "Proved for every node history, pending data and request whose range starts no later than the first pending block and ends in the stored chain or with the last pending block. For ranges that name the pre-confirmed block as start or the pre-latest block as end by number, or start or end after the pending blocks, and for page size 0, it is false of the code (refuted)."
  },
  {
   "property": "C34",
   "status": "proved",
   "theorems": [
    "C34_parse",
    "C34_roundtrip"
   ],
   "note": "Texts accepted are characterised exactly; printing is injective and parsing inverts it for block numbers below 2^63 and offsets below 2^64 (the types' ranges)."
  },
  {
   "property": "C35",
   "status": "partial",
   "theorems": [
    "C35_new_heads_shown",
    "C35_events_shown",
    "C35_no_gaps_partial",
    "C35_everything_is_sent",
    "C35_progress",
    "C35_twice_refuted",
    "C35_late_refuted",
    "C35_pruned_refuted",
    "C35_pending_first_refuted"
   ],
   "note": "For every interleaving without reorgs and pruning there is no gap and the order is that of the blocks. False as stated (refuted): one block may be received twice, a block may not be received until the next one arrives, pruning makes gaps, and event subscriptions including pre-confirmed data can miss a block."
  },
  {
   "property": "C36",
   "status": "proved",
   "theorems": [
    "C36_historical",
    "C36_live"
   ],
   "note": "Both theorems give the delivered events as the same function of block and parameters."
  },
  {
   "property": "C37",
   "status": "proved",
   "theorems": [
    "C37_delivers_longest_prefix",
    "C37_nothing_after_end",
    "C37_streams_isolated",
    "C37_part_attribution_refuted",
    "C37_no_panic_when_sending_refuted"
   ],
   "note": "Streams are delivered in order for every arrival order. Two stronger claims are refuted with witnesses."
  },
  {
   "property": "C38",
   "status": "proved",
   "theorems": [
    "C38_sent_proposal_arrives"
   ],
   "note": "Sender and receiver composed, any reordering."
  },
  {
   "property": "C39",
   "status": "proved",
   "theorems": [
    "C39_stream_id_roundtrip",
    "C39_stream_id_decode_exact"
   ],
   "note": "Height/round codec."
  },
  {
   "property": "C40",
   "status": "partial",
   "theorems": [
    "C40_completed_is_well_formed",
    "C40_well_formed_is_completed",
    "C40_refused_after_completion_refuted"
   ],
   "note": "A completed proposal is well formed and is completed once, for all part sequences; the last clause (parts after completion are refused) is false of the code: a batch after the commitment is accepted."
  },
  {
   "property": "C41",
   "status": "partial",
   "theorems": [
    "C41_executed_as_proposed_partial",
    "C41_decided_after_init_refuted",
    "C41_lower_round_refuted",
    "C41_purged_transactions_refuted",
    "C41_batch_after_commitment_refuted",
    "C41_task_survives_refuted",
    "C41_current_heights_heard_refuted"
   ],
   "note": "Safety for every history: the block finalized for a well-formed proposal is that of its transactions in order. Missing: that it is executed at all, which is false for some schedules (refutations)."
  },
  {
   "property": "C42",
   "status": "partial",
   "theorems": [
    "C42_rollback_is_prefix",
    "C42_rollback_possible",
    "C42_without_rollback",
    "C42_declared_classes_refuted",
    "C42_batch_after_rollback_refuted"
   ],
   "note": "Transactions, receipts, indices, events and state update are those of the prefix. The declared classes are not: refuted."
  },
  {
   "property": "C43",
   "status": "partial",
   "theorems": [
    "C43_recovery_returns_what_was_logged_partial",
    "C43_crash_inside_append",
    "C43_torn_line_refuted",
    "C43_unterminated_line_refuted",
    "C43_empty_committed_refuted",
    "C43_dashed_address_refuted"
   ],
   "note": "Recovery is faithful for complete logs of addresses without dashes; a write torn by a crash makes recovery fail as a whole (refuted theorems), and an empty log of a committed height is reported incomplete."
  },
  {
   "property": "C44",
   "status": "partial",
   "theorems": [
    "C44_window_is_kept",
    "C44_older_are_dropped",
    "C44_decisions_are_not_forgotten_partial",
    "C44_started_again_refuted",
    "C44_finalized_means_decided_refuted",
    "C44_torn_write_refuted"
   ],
   "note": "Decisions stay finalized unless the height is started again or a write is torn by a crash (both refuted)."
  },
  {
   "property": "C45",
   "status": "proved",
   "theorems": [
    "C45_timeouts_reported_once_in_order",
    "C45_not_after_cancel",
    "C45_loop_progress"
   ],
   "note": ""
  },
  {
   "property": "C46",
   "status": "partial",
   "theorems": [
    "C46_validator_set_is_a_map",
    "C46_total_power",
    "C46_round_robin_is_fair_partial",
    "C46_node_selector_rotates_refuted"
   ],
   "note": "The set and its power: proved in full. Rotation is proved of the round-robin selector only; the selector the node uses ignores the round, so for it the claim is false (C46_node_selector_rotates_refuted)."
  },
  {
   "property": "C47",
   "status": "partial",
   "theorems": [
    "C47_window_is_recent_log_partial",
    "C47_calls_return",
    "C47_refusal",
    "C47_zero_limit_refuted"
   ],
   "note": "For storage limits of at least one; a limit of zero keeps one sample (C47_zero_limit_refuted)."
  },
  {
   "property": "C48",
   "status": "partial",
   "theorems": [
    "C48_average_partial",
    "C48_reported_average",
    "C48_saturated_mean_refuted",
    "C48_overflow_refuted"
   ],
   "note": "Exact for all windows whose sums of prices fit 128 bits and whose newest timestamp plus the maximal gap fits 64 bits; C48_average_partial gives the answer with saturating sums in general. Beyond: saturation (C48_saturated_mean_refuted) and a panic (C48_overflow_refuted)."
  },
  {
   "property": "C49",
   "status": "partial",
   "theorems": [
    "C49_constants",
    "C49_never_below_minimum",
    "C49_up_partial",
    "C49_down",
    "C49_at_target",
    "C49_monotone",
    "C49_exact",
    "C49_recovery_partial",
    "C49_recovery_completes",
    "C49_returns",
    "C49_validation",
    "C49_bounded_step_refuted",
    "C49_recovery_refuted",
    "C49_overflow_refuted"
   ],
   "note": "Never below the minimum, direction of the move and the exact amount are proved for all values. The step is bounded by 1/48th for usage up to twice the target (C49_up_partial; false beyond: C49_bounded_step_refuted); prices below 333 never recover (C49_recovery_refuted); extreme values overflow (C49_overflow_refuted)."
  },
  {
   "property": "C50",
   "status": "proved",
   "theorems": [
    "C50_parse",
    "C50_text_roundtrip",
    "C50_text_injective",
    "C50_parse_valid",
    "C50_packing",
    "C50_comparison",
    "C50_packed_order_refuted"
   ],
   "note": ""
  },
  {
   "property": "C51",
   "status": "proved",
   "theorems": [
    "C51_lossless",
    "C51_every_felt",
    "C51_is_zero",
    "C51_total_refuted"
   ],
   "note": "Setting the flag panics for the felt p-1 only."
  },
  {
   "property": "C52",
   "status": "proved",
   "theorems": [
    "C52_verification",
    "C52_preimage",
    "C52_binding",
    "C52_sequencer_refuted"
   ],
   "note": "The sequencer address is covered except on mainnet before 0.13.2, where the fallback address is tried as well: C52_sequencer_refuted shows two verified headers with different sequencers and one hash."
  },
  {
   "property": "C53",
   "status": "proved",
   "theorems": [
    "C53_window",
    "C53_initial_segment",
    "C53_archive",
    "C53_pruned_by_checkpoint",
    "C53_pruned_by_head"
   ],
   "note": ""
  },
  {
   "property": "C54",
   "status": "proved",
   "theorems": [
    "C54_pow",
    "C54_sqrt"
   ],
   "note": ""
  },
  {
   "property": "C55",
   "status": "proved",
   "theorems": [
    "C55_class_visible"
   ],
   "note": ""
  },
  {
   "property": "C56",
   "status": "proved",
   "theorems": [
    "C56_verification",
    "C56_binding"
   ],
   "note": "Exact acceptance condition and binding, relative to no collision among the hashes computed for the two blocks."
  },
  {
   "property": "C57",
   "status": "proved",
   "theorems": [
    "C57_verify",
    "C57_binds",
    "C57_account",
    "C57_function",
    "C57_query",
    "C57_declare_v0_refuted",
    "C57_deploy_refuted",
    "C57_invoke_v0_refuted",
    "C57_l1_handler_refuted"
   ],
   "note": "Hash functions are parameters; binding is stated for hash calls without collision (clean). The refuted theorems show which fields the older kinds (declare v0, deploy, invoke v0, L1 handler) leave open."
  },
  {
   "property": "C58",
   "status": "partial",
   "theorems": [
    "C58_linked_partial",
    "C58_orderly_partial",
    "C58_contiguous_partial",
    "C58_head_partial",
    "C58_no_panic_partial",
    "C58_early_restart_refuted",
    "C58_number_refuted"
   ],
   "note": "Proved for all schedules in which the download task is restarted only when its queue is empty, and for gateways that answer a request for block n with a block numbered n while tracking; false otherwise (refuted). Blocks finalized by consensus are not produced by the modelled task."
  },
  {
   "property": "C59",
   "status": "proved",
   "theorems": [
    "C59_roll_back",
    "C59_converges",
    "C59_stores"
   ],
   "note": "Reachable states are those of C58_linked_partial."
  },
  {
   "property": "C60",
   "status": "proved",
   "theorems": [
    "C60_address",
    "C60_binds",
    "C60_filled_in"
   ],
   "note": "Pedersen is a parameter with values below the field prime."
  },
  {
   "property": "C61",
   "status": "proved",
   "theorems": [
    "C61_preimage",
    "C61_binds"
   ],
   "note": "Keccak-256 is a parameter."
  },
  {
   "property": "C62",
   "status": "proved",
   "theorems": [
    "C62_verified"
   ],
   "note": "The verdicts (transaction hashes, block hash) are inputs here; what they mean is C57 and C56."
  },
  {
   "property": "C63",
   "status": "proved",
   "theorems": [
    "C63_sufficient",
    "C63_ends",
    "C63_tight",
    "C63_answers",
    "C63_covered",
    "C63_failures",
    "C63_balance_refuted"
   ],
   "note": "The execution function is arbitrary. That a transaction consumes no more than its limit is a hypothesis where needed (C63_ends, C63_answers)."
  },
  {
   "property": "C64",
   "status": "proved",
   "theorems": [
    "C64_answers",
    "C64_waits",
    "C64_once",
    "C64_results",
    "C64_stuck_refuted",
    "C64_error_remembered_refuted"
   ],
   "note": "Safety and absence of lost wake-ups over all interleavings; evictions are arbitrary."
  },
  {
   "property": "C65",
   "status": "partial",
   "theorems": [
    "C65_stored",
    "C65_last_update_block",
    "C65_block_not_found",
    "C65_class",
    "C65_last_update_partial",
    "C65_nonce_partial",
    "C65_storage_partial",
    "C65_no_panic",
    "C65_replaced_refuted",
    "C65_last_update_refuted",
    "C65_other_parent_refuted",
    "C65_migrated_refuted"
   ],
   "note": "Stored blocks, missing blocks and classes are proved in full. Nonces and storage values of the pre-confirmed block need that no contract is both deployed and replaced in the pending blocks: otherwise the code answers CONTRACT_NOT_FOUND (refuted). The block reported for a slot written by the pre-latest block is the pre-confirmed one (refuted), and pending data are matched to the latest block by number only (refuted)."
  },
  {
   "property": "C66",
   "status": "partial",
   "theorems": [
    "C66_by_hash",
    "C66_receipt",
    "C66_status",
    "C66_receipt_by_hash",
    "C66_no_gap",
    "C66_by_index",
    "C66_no_block",
    "C66_pre_confirmed",
    "C66_no_receipt_refuted",
    "C66_candidate_refuted"
   ],
   "note": "Receipts and status of pending transactions need that every transaction of the pre-latest block has a receipt: otherwise the code panics (refuted). Status and receipt disagree for a stored transaction that also is a candidate (refuted); C66_status states exactly when."
  },
  {
   "property": "C67",
   "status": "proved",
   "theorems": [
    "C67_never_back",
    "C67_no_panic",
    "C67_origin",
    "C67_newest_shown",
    "C67_executed_refuted",
    "C67_too_early_refuted",
    "C67_reorg_refuted"
   ],
   "note": "The refuted theorems are about the stronger claim that what the gateway has now is eventually shown: executed candidates, data polled too early and data after a reorg are not."
  },
  {
   "property": "C68",
   "status": "partial",
   "theorems": [
    "C68_single",
    "C68_batch",
    "C68_refused",
    "C68_progress",
    "C68_websocket",
    "C68_empty_batch_refuted",
    "C68_disabled_refuted"
   ],
   "note": "HTTP in full. For websockets the claim fails after an empty batch and for disabled batches (refuted); C68_websocket proves it for connections without empty batches."
  },
  {
   "property": "C69",
   "status": "proved",
   "theorems": [
    "C69_response_first",
    "C69_ids_distinct",
    "C69_in_order",
    "C69_nothing_lost",
    "C69_ended_once",
    "C69_end_succeeds",
    "C69_ended",
    "C69_late_refuted",
    "C69_error_lost_refuted"
   ],
   "note": "That nothing at all is sent after the end, and that errors always reach the client, is false of the code (refuted)."
  },
  {
   "property": "C70",
   "status": "proved",
   "theorems": [
    "C70_first",
    "C70_sound",
    "C70_complete",
    "C70_newest",
    "C70_stale_refuted",
    "C70_missed_refuted",
    "C70_untimely_refuted"
   ],
   "note": "Under the conditions named in the statement; without each of them it is false of the code (refuted). Only the last of several states logged by one L1 block is reported."
  },
  {
   "property": "C71",
   "status": "proved",
   "theorems": [
    "C71_anchored",
    "C71_complete",
    "C71_kept",
    "C71_tracked",
    "C71_served",
    "C71_stale_refuted"
   ],
   "note": "C71_served is for networks without a table of known block hashes. Above the checkpoint the stored headers need not be linked (refuted)."
  },
  {
   "property": "C72",
   "status": "proved",
   "theorems": [
    "C72_stored",
    "C72_no_deadlock",
    "C72_bounded",
    "C72_complete",
    "C72_error_lost_refuted",
    "C72_receipts_refuted",
    "C72_casm_refuted"
   ],
   "note": "Commitments and hashes are arbitrary functions. Receipts, compiled classes and the report of errors are refuted."
  },
  {
   "property": "C73",
   "status": "partial",
   "theorems": [
    "C73_commitment",
    "C73_batch_partial",
    "C73_binds",
    "C73_migrated_refuted",
    "C73_system_contracts"
   ],
   "note": "Full for blocks one by one; for batches without migrated classes (with them it is refuted). Trees are taken as what they hold, which is C08-C11."
  },
  {
   "property": "C74",
   "status": "partial",
   "theorems": [
    "C74_served",
    "C74_refused",
    "C74_sound",
    "C74_mid_batch_refuted",
    "C74_pruned_refuted",
    "C74_leaves_refuted",
    "C74_class_absence_refuted"
   ],
   "note": "Full for blocks that arrived alone or ended a batch, on nodes that do not prune and batches without migrated classes; refuted for blocks inside a batch. Trees are taken as what they hold (C08-C11)."
  },
  {
   "property": "C75",
   "status": "partial",
   "theorems": [
    "C75_order",
    "C75_true_partial",
    "C75_l1_partial",
    "C75_complete",
    "C75_complete_stored",
    "C75_gap_refuted",
    "C75_l1_refuted",
    "C75_reorg_lost_refuted"
   ],
   "note": "Order in full. Truth in full but for acceptance on L1 right after a pre-confirmation (refuted). Completeness except for blocks and reorgs that come between the read of the database and the subscription (refuted)."
  },
  {
   "property": "C76",
   "status": "partial",
   "theorems": [
    "C76_served",
    "C76_transactions",
    "C76_classes",
    "C76_events",
    "C76_state_diffs_partial",
    "C76_block_partial",
    "C76_any_transactions",
    "C76_any_classes",
    "C76_any_events",
    "C76_any_state_diffs",
    "C76_any_block",
    "C76_migrated_stuck",
    "C76_migrated_stuck_refuted",
    "C76_migrated_wrong_refuted",
    "C76_event_panic_refuted",
    "C76_short_diff_refuted"
   ],
   "note": "Serving in full; transactions, classes and events from honest peers in full; state diffs for blocks without migrated classes (with them refuted). For any peers the numbers of items in full, except that a diff may be shorter (refuted); no crash except in the event stream (refuted)."
  },
  {
   "property": "C77",
   "status": "partial",
   "theorems": [
    "C77_defined",
    "C77_refused",
    "C77_transactions",
    "C77_events",
    "C77_absent",
    "C77_by_hash",
    "C77_unknown",
    "C77_old_blobs_partial",
    "C77_no_events",
    "C77_too_large",
    "C77_total_gas_refuted",
    "C77_no_events_refuted",
    "C77_too_large_refuted"
   ],
   "note": "What is inserted reads back in full, for blocks up to 128 MiB (beyond refuted). Old blobs read as what they say but for the total gas of version 2 (refuted)."
  },
  {
   "property": "C78",
   "status": "partial",
   "theorems": [
    "C78_escapes",
    "C78_writing_binds",
    "C78_named_tuples",
    "C78_cairo_value_partial",
    "C78_cairo_refused",
    "C78_cairo_function",
    "C78_cairo_binds",
    "C78_sierra_value",
    "C78_sierra_binds",
    "C78_kinds",
    "C78_class_hash",
    "C78_python_refuted"
   ],
   "note": "Binding, refusal and the value of Sierra hashes are proved in full; that a Cairo 0 hash is of what Python writes is proved for strings without characters from U+007F to U+0FFF and refuted with one."
  },
  {
   "property": "C79",
   "status": "partial",
   "theorems": [
    "C79_transactions",
    "C79_block_partial",
    "C79_exact",
    "C79_any_transaction",
    "C79_any_receipt",
    "C79_accepted",
    "C79_events",
    "C79_any_event",
    "C79_headers",
    "C79_any_header",
    "C79_ancient_refuted",
    "C79_receipts_refuted",
    "C79_panic_refuted",
    "C79_address_refuted"
   ],
   "note": "Headers and events are proved in full. Transactions and receipts are proved for hashes of the present kind and counters below 2^32; other blocks are refused or make the sender panic, which the refuted theorems show."
  },
  {
   "property": "C80",
   "status": "partial",
   "theorems": [
    "C80_sum",
    "C80_group",
    "C80_no_point_of_order_two",
    "C80_generator_order",
    "C80_affine",
    "C80_projective",
    "C80_multiply",
    "C80_gen_multiply",
    "C80_from_x",
    "C80_pedersen",
    "C80_convert_partial",
    "C80_convert_refuted"
   ],
   "note": "All proved for every point, except that conversions lose the neutral point, which the refuted theorem shows. The lookup tables are premises, and tables that meet them are shown to exist."
  },
  {
   "property": "C81",
   "status": "partial",
   "theorems": [
    "C81_verify",
    "C81_complete",
    "C81_sound_partial",
    "C81_block",
    "C81_get_pk",
    "C81_sign_k",
    "C81_signed_verifies_partial",
    "C81_sign",
    "C81_full_key",
    "C81_no_panic_refuted",
    "C81_sound_refuted",
    "C81_sign_message_refuted",
    "C81_sign_zero_refuted",
    "C81_zero_key_refuted",
    "C81_full_key_refuted",
    "C81_one_signature_refuted"
   ],
   "note": "The answers are characterised exactly for all inputs. Not as claimed: numbers from the order on panic, pairs whose parts cancel are accepted (which gives the secret away), and some signatures that signing returns are refused; each has a refuted theorem."
  },
  {
   "property": "C82",
   "status": "proved",
   "theorems": [
    "C82_permutation",
    "C82_bijective",
    "C82_no_merging",
    "C82_hash_two",
    "C82_hash_many"
   ],
   "note": "For all states and lists, against the published round keys as in the repository's spec file."
  },
  {
   "property": "C83",
   "status": "partial",
   "theorems": [
    "C83_inbound_limit_partial",
    "C83_inbound_limit_refuted",
    "C83_room",
    "C83_protected",
    "C83_someone_goes",
    "C83_fastest",
    "C83_choice_partial",
    "C83_choice_refuted",
    "C83_dial",
    "C83_outbound_limit_refuted",
    "C83_wait_partial",
    "C83_wait_refuted",
    "C83_wait_closing_refuted",
    "C83_pending",
    "C83_no_panic",
    "C83_no_panic_refuted"
   ],
   "note": "Over all runs. Partial because the limits, the choice among the unprotected, the time evicted peers are kept out and the absence of panics are false of the code as stated; counterexamples and what does hold are proved."
  },
  {
   "property": "C84",
   "status": "partial",
   "theorems": [
    "C84_state",
    "C84_found",
    "C84_pending",
    "C84_only_declared_partial",
    "C84_once_partial",
    "C84_only_declared_refuted",
    "C84_bounded"
   ],
   "note": "Over all interleavings. Partial because undeclared classes are given out after reorgs (refuted); proved without reorgs, and with them that the class was declared once."
  },
  {
   "property": "C85",
   "status": "partial",
   "theorems": [
    "C85_storage",
    "C85_nonce_partial",
    "C85_class_hash_partial",
    "C85_stale",
    "C85_nonce_refuted",
    "C85_class_hash_refuted",
    "C85_classes",
    "C85_snapshot_refuted",
    "C85_one_ahead",
    "C85_steady"
   ],
   "note": "Storage and classes in full. Nonces and class hashes are refuted, and proved on top of the first block that is not stored, and further up where the last decided change of the contract sets them; constancy during an execution is refuted."
  }
 ]
}