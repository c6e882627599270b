{"id": "C01", "title": "Felt hexadecimal text round-trips and never denotes an out-of-range value", "statement": "Parsing the hexadecimal text printed for a field element returns that element; every accepted hexadecimal string denotes exactly the number it spells and that number is below the field modulus; every string spelling a number at or above the modulus, longer than 64 digits, without the 0x prefix or with a non-hex digit is rejected.", "quantifier": "all field elements and all byte strings offered as hex text", "why_tests_cant": "2^251 values and infinitely many strings; the carries in the nibble packing of odd and even lengths and the range check at the modulus boundary are only sampled by tests.", "anchors": ["crates/crypto/src/algebra/field/felt.rs: Felt::from_hex_str, Felt::to_hex_str, Felt::as_hex_str, Felt::from_be_slice, Felt::from_be_bytes"]}
{"id": "C02", "title": "Felt decimal text round-trips", "statement": "Parsing the decimal text printed for a field element returns that element; an accepted decimal string denotes the number it spells modulo nothing, i.e. a value below the modulus.", "quantifier": "all field elements and all decimal digit strings", "why_tests_cant": "The decimal conversion repeatedly divides a 256-bit number; correctness for all values is an arithmetic induction no finite sample covers.", "anchors": ["crates/crypto/src/algebra/field/felt.rs: Felt::from_dec_str, Felt::to_dec_str"]}
{"id": "C03", "title": "Felt byte, bit and integer views agree", "statement": "A big-endian byte slice is accepted as a field element exactly when it has at most 32 bytes and its value is below the modulus, and then denotes that value; the 251-bit path view of an element below 2^251 and the element rebuilt from those bits agree in both directions; conversion to u64/u128 succeeds exactly when the value fits and then preserves it.", "quantifier": "all byte slices, all bit strings of length up to 251, all field elements", "why_tests_cant": "The domain is all 256-bit strings; boundary conditions at 2^64, 2^128, 2^251 and the modulus interact with offsets in the buffer.", "anchors": ["crates/crypto/src/algebra/field/felt.rs: Felt::from_be_slice, Felt::from_be_bytes, Felt::view_bits, Felt::from_bits, Felt::has_more_than_251_bits, From<u64>, From<u128>, TryFrom"]}
{"id": "C04", "title": "Montgomery field arithmetic computes modular arithmetic", "statement": "For canonical inputs, addition, subtraction, negation, doubling, multiplication and squaring of Montgomery field elements return the canonical representative of the corresponding operation modulo the field prime, with every 64-bit limb operation wrapping exactly as in the code and no carry lost.", "quantifier": "all pairs of canonical limb vectors, for the base field and the scalar field", "why_tests_cant": "2^502 input pairs; carry-propagation bugs are triggered by inputs random tests hit with negligible probability.", "anchors": ["crates/crypto/src/algebra/field/core.rs: adc, sbb, mac, acc", "crates/crypto/src/algebra/field/montfelt/additive.rs", "crates/crypto/src/algebra/field/montfelt/multiplicative.rs", "crates/crypto/src/algebra/field/montfelt/reduce.rs", "crates/crypto/src/algebra/field/curveorder/"]}
{"id": "C05", "title": "Montgomery conversion is a bijection on canonical values", "statement": "Converting a field element into Montgomery form and back returns it; converting back and forth from Montgomery form returns the same limbs; conversion of a non-canonical 256-bit integer reduces it modulo the prime.", "quantifier": "all 256-bit integers", "why_tests_cant": "Same domain-size argument; the reduction has data-dependent carries.", "anchors": ["crates/crypto/src/algebra/field/montfelt/convert.rs", "crates/crypto/src/algebra/field/montfelt/mont.rs"]}
{"id": "C06", "title": "Incremental Poseidon hashing equals one-shot hashing", "statement": "Feeding a sequence of field elements one at a time to the incremental hasher and finishing yields the same result as hashing the whole sequence at once, for sequences of every length; two sequences are padded to the same sequence of absorbed blocks only if they are equal.", "quantifier": "all finite sequences of field elements, for any permutation", "why_tests_cant": "Lengths are unbounded and the parity handling of the buffered element must be right for each.", "anchors": ["crates/crypto/src/hash/poseidon/hash.rs: PoseidonHasher, poseidon_hash_many"]}
{"id": "C07", "title": "Hash chain is the length-sealed left fold", "statement": "The value of a hash chain equals the left fold of the two-to-one hash over the inputs from zero, sealed with the number of inputs; chains over different sequences collide only if the two-to-one hash collides.", "quantifier": "all finite sequences of field elements, for any two-to-one hash", "why_tests_cant": "Unbounded sequences; collision statements are universally quantified over pairs of sequences.", "anchors": ["crates/crypto/src/hash/pedersen/chain.rs: HashChain"]}
{"id": "C08", "title": "The Merkle tree is a map", "statement": "After any sequence of writes (a zero value deletes), reading a key returns the value of the last write to that key if it is non-zero and nothing otherwise; writing and reading never fail on a well-formed tree.", "quantifier": "all sequences of set/delete operations with arbitrary keys and values, from the empty tree or from any stored tree", "why_tests_cant": "The number of histories is unbounded and edge splitting / merging depends on arbitrary shared prefixes.", "anchors": ["crates/merkle-tree/src/tree.rs: MerkleTree::set, delete_leaf, get, traverse, merge_edges", "crates/merkle-tree/src/merkle_node.rs"]}
{"id": "C09", "title": "The Merkle root depends only on the contents", "statement": "Two histories of writes that leave the same key-value contents commit to the same root; in particular the root is independent of write order, of overwritten values and of deleted keys, and the root of the empty contents is zero.", "quantifier": "all pairs of write histories", "why_tests_cant": "Quantifies over pairs of unbounded histories; requires canonicity of the tree shape.", "anchors": ["crates/merkle-tree/src/tree.rs: MerkleTree::set, delete_leaf, commit, commit_subtree"]}
{"id": "C10", "title": "The Merkle root binds the contents", "statement": "If two trees of the same height commit to the same root then they hold the same key-value contents, unless two different inputs of the node hash with the same output can be exhibited.", "quantifier": "all pairs of trees and any hash function", "why_tests_cant": "A statement about all pairs of trees; collision extraction is a proof, not a test.", "anchors": ["crates/merkle-tree/src/merkle_node.rs: BinaryNode::calculate_hash, EdgeNode::calculate_hash", "crates/merkle-tree/src/tree.rs: commit"]}
{"id": "C11", "title": "A committed tree reloaded from storage is the same tree", "statement": "Committing a tree and persisting the resulting nodes, then loading a tree at the new root index, gives a tree with the same contents and root; reading through partially resolved nodes gives the same answers as reading the in-memory tree, also over many commit/modify/commit generations.", "quantifier": "all write histories split arbitrarily into commits", "why_tests_cant": "Interleavings of writes and commits are unbounded; node sharing between generations must be sound for each.", "anchors": ["crates/merkle-tree/src/tree.rs: commit, commit_subtree, resolve", "crates/storage/src/connection/trie.rs: insert_trie, StoredNode"]}
{"id": "C12", "title": "Storage proofs are complete", "statement": "For every committed tree and key, the produced proof is accepted by the verifier: as membership with the stored value if the key is present, as non-membership if it is absent.", "quantifier": "all trees, all keys", "why_tests_cant": "Non-membership proofs end at an arbitrary diverging edge; all shapes must be covered.", "anchors": ["crates/merkle-tree/src/tree.rs: get_proof, get_proofs", "crates/rpc/src/method/get_storage_proof.rs"]}
{"id": "C13", "title": "Storage proofs are sound", "statement": "Any list of nodes (however produced) which verifies against a tree's root for a key proves the value actually stored under the key, or its absence, unless a collision of the node hash can be exhibited.", "quantifier": "all trees, keys and adversarial proofs", "why_tests_cant": "Adversarial inputs are unbounded.", "anchors": ["crates/merkle-tree/src/merkle_node.rs: hash", "crates/common/src/trie.rs: TrieNode::hash"]}
{"id": "C14", "title": "Nodes reported as removed are never needed by the new version", "statement": "When a tree version is committed, no node that the new version reaches in storage is among the nodes reported as removed, and every stored node of the old version not reached by the new version that was visited by the update is reported.", "quantifier": "all update batches on all stored trees", "why_tests_cant": "A single wrongly reported node corrupts the trie much later, when pruning deletes it; tests exercise few shapes.", "anchors": ["crates/merkle-tree/src/tree.rs: nodes_removed, commit, delete_leaf, set", "crates/storage/src/connection/trie.rs: remove_trie"]}
{"id": "C15", "title": "Trie pruning keeps every version in the window readable", "statement": "With trie pruning keeping k blocks, after any sequence of block commits and prunings the trie as of every block in the last k+1 blocks can be read completely and has the contents it had when committed.", "quantifier": "all k, all sequences of block updates", "why_tests_cant": "Depends on all interleavings of removals, root rows and prune points over unboundedly many blocks.", "anchors": ["crates/storage/src/connection/trie.rs: prune_trie, remove_trie, insert_root, root index lookups"]}
{"id": "C16", "title": "Stored trie node encoding round-trips", "statement": "Decoding the stored bytes of a trie node returns the node: for binary, edge and leaf variants, for every child index and every edge path of 0 to 251 bits.", "quantifier": "all nodes", "why_tests_cant": "Variable-length integers, bit-to-byte padding and the trailing length byte interact; 2^251 paths.", "anchors": ["crates/storage/src/connection/trie.rs: StoredNode::encode, StoredNode::decode", "crates/storage/src/connection/trie.rs: StoredSerde"]}
{"id": "C17", "title": "Block commitments are order- and content-binding", "statement": "The transaction, event and receipt commitments are functions of the ordered list of item hashes only, and two different lists of non-zero item hashes give different commitments unless a node hash collision can be exhibited.", "quantifier": "all lists of items", "why_tests_cant": "Unbounded lists; index keys of 64 bits.", "anchors": ["crates/block-commitments/src/lib.rs: calculate_commitment_root, calculate_transaction_commitment, calculate_event_commitment, calculate_receipt_commitment", "crates/merkle-tree/src/transaction.rs: TransactionOrEventTree"]}
{"id": "C18", "title": "Historical state lookups return the state as of the block", "statement": "After storing the state updates of blocks 0..n, looking up a storage value, nonce or class hash at block b returns the value written by the latest update at or before b (nothing if there is none), regardless of updates after b.", "quantifier": "all update histories, blocks and keys", "why_tests_cant": "Unbounded histories; the 'latest row at or before' query must be right for every distribution of rows.", "anchors": ["crates/storage/src/connection/state_update.rs: insert_state_update_data, storage_value, contract_nonce, contract_class_hash"]}
{"id": "C19", "title": "Blockchain pruning preserves state lookups in the kept window", "statement": "Pruning blocks one after another in increasing order changes no storage, nonce or class-hash lookup at any block that is still kept.", "quantifier": "all update histories, all prune points, all kept blocks and keys", "why_tests_cant": "A deleted row is only missed by lookups of a key last written long ago; all histories must be covered.", "anchors": ["crates/storage/src/connection/pruning.rs: prune_block", "crates/storage/src/connection/state_update.rs", "crates/pathfinder/src/state/sync.rs: perform_blockchain_pruning"]}
{"id": "C20", "title": "A reorg forgets the orphaned blocks completely", "statement": "After orphaning the blocks above a target, every state lookup gives what it gave when the target was the head, and continuing with other blocks gives the same answers as if the orphaned blocks had never been stored.", "quantifier": "all histories, all reorg targets, all continuations", "why_tests_cant": "Schedules of inserts and reorgs are unbounded.", "anchors": ["crates/storage/src/connection/block.rs: purge_block", "crates/pathfinder/src/state/sync.rs: l2_reorg", "crates/storage/src/connection/state_update.rs"]}
{"id": "C21", "title": "Reverse updates restore the earlier state", "statement": "Applying the computed reverse updates between a head and a target to the state at the head yields, for every contract and key, the state at the target; contracts first deployed after the target are reported deleted.", "quantifier": "all histories, heads and targets", "why_tests_cant": "All distributions of updates over blocks; missing one key breaks the state commitment.", "anchors": ["crates/storage/src/connection/state_update.rs: reverse_contract_updates, reverse_storage_updates, reverse_nonce_updates, reverse_sierra_class_updates", "crates/merkle-tree/src/contract_state.rs: revert_contract_state", "crates/pathfinder/src/state/sync/revert.rs"]}
{"id": "C22", "title": "A stored state update reads back unchanged", "statement": "Reading the state update of a stored block returns the contract deployments, class replacements, nonces and storage writes that were stored for this block.", "quantifier": "all update histories and blocks, in archive mode and after pruning", "why_tests_cant": "Whether a class row is reported as deployment or replacement depends on the existence of older rows, hence on the full history and on pruning.", "anchors": ["crates/storage/src/connection/state_update.rs: insert_state_update_data, state_update"]}
{"id": "C23", "title": "Blocks reported as accepted on L1 are ancestors of an L1-reported block", "statement": "At every time the L1/L2 agreement pointer, if set, points to a block of the present chain (a stored one, on an archive node) which is equal to or an ancestor of a stored-at-that-time block whose number and hash L1 reported.", "quantifier": "all interleavings of L1 updates, L2 blocks and reorgs", "why_tests_cant": "Interleavings of three event sources are unbounded.", "anchors": ["crates/pathfinder/src/state/sync.rs: l1_update, l2_update, l2_reorg", "crates/storage/src/connection/reference.rs", "crates/storage/src/connection/ethereum.rs", "crates/storage/src/connection/block.rs: block_is_l1_accepted"]}
{"id": "C24", "title": "The stored chain is contiguous under any sync event sequence", "statement": "Whatever the sequence of downloaded blocks, duplicates and reorgs the consumer receives from a producer that announces each block as successor of the head, the stored block numbers are an unbroken range without duplicates, and stale duplicates change nothing.", "quantifier": "all event sequences", "why_tests_cant": "Unbounded event sequences.", "anchors": ["crates/pathfinder/src/state/sync.rs: consumer, l2_update, l2_reorg"]}
{"id": "C25", "title": "Merging state updates composes lookups", "statement": "Looking up a nonce, class or storage value in the merge of an earlier and a later pending state update gives the later update's answer if it has one and the earlier update's otherwise, and no declared or migrated class is lost.", "quantifier": "all pairs of state updates and all keys", "why_tests_cant": "All combinations of deploy/replace/none with present and absent entries.", "anchors": ["crates/common/src/state_update.rs: StateUpdate::apply, contract_nonce, contract_class, storage_value, class_is_declared"]}
{"id": "C26", "title": "State diff length is representation-independent", "statement": "The state diff length reported for a state update is the number of its storage writes, nonces, deployments, replacements and class declarations/migrations, and is the same in both representations of a state update used by the node.", "quantifier": "all state updates", "why_tests_cant": "All combinations of sections; the length is hashed into the block hash.", "anchors": ["crates/common/src/state_update.rs: StateUpdate::state_diff_length, StateUpdateData::state_diff_length, StateUpdateData::is_empty"]}
{"id": "C27", "title": "The state diff commitment encoding is canonical and injective", "statement": "The sequence of field elements hashed into the state diff commitment does not depend on the iteration order of the maps in the state update, and determines the content of the state update (deployed/replaced classes, declared/migrated classes, storage writes, nonces).", "quantifier": "all pairs of state updates", "why_tests_cant": "Order independence and injectivity are statements about all pairs; map iteration order is random.", "anchors": ["crates/common/src/state_update.rs: state_diff_commitment::compute"]}
{"id": "C28", "title": "Bloom filters have no false negatives", "statement": "A key inserted into a block's event bloom filter is always found by the check, whatever other keys were inserted before or after.", "quantifier": "all key sets and any hash function", "why_tests_cant": "Index arithmetic on two 64-bit hashes; unbounded key sets.", "anchors": ["crates/storage/src/bloom.rs: BloomFilter::set, check, bloom_hash"]}
{"id": "C29", "title": "Aggregate bloom filters have no false negatives and respect block ranges", "statement": "A block whose bloom filter was inserted into an aggregate filter is among the blocks reported for every key in that block; blocks are reported under their own number; an empty key set reports every block.", "quantifier": "all sequences of insertions and key sets", "why_tests_cant": "Bit-matrix transposition over 8192x16384 bits and arbitrary insertion orders.", "anchors": ["crates/storage/src/bloom.rs: AggregateBloom::insert, blocks_for_keys"]}
{"id": "C30", "title": "Event filter candidate blocks cover every matching event", "statement": "For any address set and key pattern, every block containing an event that matches the pattern is among the candidate blocks computed from the event filters.", "quantifier": "all event sets, address sets and key patterns within the limits of the API", "why_tests_cant": "Key positions are folded into filter keys; empty groups, position wrap-around and truncation interact.", "anchors": ["crates/storage/src/connection/event.rs: check, check_addresses, check_keys, set_keys", "crates/storage/src/bloom.rs: set_keys, set_address"]}
{"id": "C31", "title": "Event paging returns each matching event exactly once", "statement": "Following continuation tokens from the first page until none is returned, the concatenation of pages is exactly the list of matching events in the requested block range in order, without omission or duplication, for every page size and scan limit.", "quantifier": "all chains, filters, page sizes and scan limits", "why_tests_cant": "Pages may end in the middle of a block, at block ends, or by scan limits in each combination.", "anchors": ["crates/storage/src/connection/event.rs: events, continuation_token", "crates/rpc/src/method/get_events.rs"]}
{"id": "C32", "title": "The running event filter always covers the stored chain", "statement": "After any sequence of block insertions, restarts and reorgs, every block of the chain is covered by exactly one persisted or running event filter that contains its events.", "quantifier": "all sequences of inserts, reorgs and restarts", "why_tests_cant": "Roll-over at range boundaries combined with reorgs across them.", "anchors": ["crates/storage/src/connection/event.rs: upsert_block_event_filters, RunningEventFilter, rebuild", "crates/storage/src/connection/block.rs: purge_block", "crates/storage/src/connection.rs: store_in_memory_state, reset_in_memory_state"]}
{"id": "C33", "title": "Event queries including pending data neither lose nor duplicate events", "statement": "Paging over a range that ends in the pending data returns stored events, then pre-latest events, then pre-confirmed events, each exactly once, for a fixed snapshot.", "quantifier": "all stored and pending event lists, page sizes", "why_tests_cant": "Page boundaries can fall between the database and either pending block.", "anchors": ["crates/rpc/src/method/get_events.rs: get_events, get_pending_events, match_and_fill_events"]}
{"id": "C34", "title": "Continuation tokens round-trip as text", "statement": "Parsing the printed form of a continuation token returns the token, and no other text is accepted as a different token of the same printed form.", "quantifier": "all tokens and strings", "why_tests_cant": "Unbounded strings; decimal printing of 64-bit numbers.", "anchors": ["crates/rpc/src/method/get_events.rs: ContinuationToken"]}
{"id": "C35", "title": "Block subscriptions have no gaps", "statement": "A new-heads subscriber starting at block s receives every block from s on in increasing order, no matter how catch-up reads, commits and live notifications interleave.", "quantifier": "all interleavings of chain growth, notification delivery and the subscriber's steps, without reorgs", "why_tests_cant": "Race conditions between catch-up and live subscription are schedule-dependent.", "anchors": ["crates/rpc/src/jsonrpc/router/subscription.rs: RpcSubscriptionEndpoint::invoke", "crates/rpc/src/method/subscribe_new_heads.rs"]}
{"id": "C36", "title": "Historical and live event filtering agree", "statement": "An event is delivered by a subscription's historical catch-up exactly when the live stream would deliver it for the same subscription parameters.", "quantifier": "all events and subscription parameters", "why_tests_cant": "All combinations of key groups including trailing empty groups.", "anchors": ["crates/rpc/src/method/subscribe_events.rs: Params::matches, catch_up, subscribe", "crates/storage/src/connection/event.rs: events_in_range"]}
{"id": "C37", "title": "Proposal streams are delivered in order exactly once", "statement": "For messages of one proposal stream arriving in any order with any duplication and loss, the parts delivered are always exactly the longest gap-free prefix, each delivered once and in order, and nothing is delivered after the end marker.", "quantifier": "all arrival schedules of all streams", "why_tests_cant": "n! orders with duplicates.", "anchors": ["crates/p2p/src/consensus.rs: handle_incoming_proposal_message", "crates/p2p/src/consensus/stream.rs"]}
{"id": "C38", "title": "A sent proposal arrives unchanged", "statement": "If every message produced for a proposal arrives at least once, in any order, the receiver obtains exactly the proposal's parts in order.", "quantifier": "all proposals and all arrival schedules containing every message", "why_tests_cant": "Combines numbering on the sending side with reassembly on the receiving side for all schedules.", "anchors": ["crates/p2p/src/consensus.rs: create_outgoing_proposal_message, handle_incoming_proposal_message"]}
{"id": "C39", "title": "Height-and-round stream ids round-trip", "statement": "Encoding a height and round as a stream id and decoding it returns the same height and round, and only 12-byte strings decode.", "quantifier": "all heights and rounds, all byte strings", "why_tests_cant": "2^96 values.", "anchors": ["crates/p2p/src/consensus/height_and_round.rs"]}
{"id": "C40", "title": "Only well-formed proposals are completed", "statement": "A proposal is reported complete only if its parts are one init, then either nothing or one or more non-empty transaction batches, then one commitment; no other part sequence is accepted as complete and parts after completion are refused.", "quantifier": "all part sequences", "why_tests_cant": "Unbounded part sequences.", "anchors": ["crates/pathfinder/src/consensus/inner/proposal_validator.rs"]}
{"id": "C41", "title": "Deferring execution does not change what is executed", "statement": "For every interleaving of proposal parts and the parent block being decided, the transactions executed for a proposal and their order are the same as if execution had never been deferred.", "quantifier": "all schedules of parts, executed-transaction counts and parent decisions", "why_tests_cant": "Schedules are unbounded; the deferral buffer can be flushed at any point.", "anchors": ["crates/pathfinder/src/consensus/inner/batch_execution.rs", "crates/pathfinder/src/consensus/inner/p2p_task.rs: execute_deferred_for_next_height", "crates/validator/src/lib.rs: should_defer_validation"]}
{"id": "C42", "title": "Rolling back to a transaction count leaves a consistent prefix", "statement": "After executing batches and rolling back to a count, the block's transactions, receipts, events and declared classes are those of the first count transactions, and receipt indices are 0..count-1.", "quantifier": "all batch sequences and rollback targets", "why_tests_cant": "All splits into batches and rollback targets.", "anchors": ["crates/validator/src/lib.rs: ValidatorTransactionBatchStage::execute_batch, rollback_to_transaction, consensus_finalize0"]}
{"id": "C43", "title": "WAL recovery reconstructs what was logged", "statement": "After any sequence of appends, heights and restarts, recovery returns for every incomplete height exactly the entries that were appended for it, in order, and classifies a height as finalized exactly when a decision was logged or the height is already committed.", "quantifier": "all append sequences, crash points and restart histories", "why_tests_cant": "Crash points between and inside appends.", "anchors": ["crates/consensus/src/wal.rs: FileWalSink, recovery::recover_incomplete_heights, collect_wal_files", "crates/consensus/src/internal/wal.rs", "crates/consensus/src/lib.rs: recover"]}
{"id": "C44", "title": "Engine pruning keeps the configured window and never forgets decisions", "statement": "Whatever the sequence of heights started and decided, engines within the history depth below the highest height are kept, older ones are dropped, and a decided height keeps being reported as finalized.", "quantifier": "all command and event sequences", "why_tests_cant": "Unbounded histories.", "anchors": ["crates/consensus/src/lib.rs: handle_command, next_event, prune_old_engines, is_height_finalized"]}
{"id": "C45", "title": "Timeouts fire once, in due order, unless cancelled", "statement": "A scheduled timeout is reported at most once, never before it is due, in order of due time, and never after being cancelled; nothing scheduled and not cancelled is lost.", "quantifier": "all sequences of schedule, cancel, reset and poll operations", "why_tests_cant": "Unbounded operation sequences with arbitrary clocks.", "anchors": ["crates/consensus/src/internal.rs: TimeoutManager"]}
{"id": "C46", "title": "Validator sets are duplicate-free and proposers rotate fairly", "statement": "A validator set contains each address once with the last given data and its total voting power is the sum over the members; over any window of as many consecutive rounds as there are validators, each validator is proposer exactly once.", "quantifier": "all validator lists and rounds", "why_tests_cant": "Unbounded lists and rounds.", "anchors": ["crates/consensus/src/lib.rs: ValidatorSet::new, RoundRobinProposerSelector"]}
{"id": "C47", "title": "The L1 gas price window is contiguous and bounded", "statement": "After any sequence of offered samples, the retained samples have consecutive block numbers, never exceed the storage limit and are the most recent accepted ones; an out-of-order sample leaves the window unchanged and reports an error.", "quantifier": "all sample sequences", "why_tests_cant": "Unbounded sequences.", "anchors": ["crates/gas-price/src/l1.rs: add_sample"]}
{"id": "C48", "title": "The L1 gas price average is the mean of the right samples", "statement": "The reported average is the integer mean of the up to N samples ending at the last one no newer than timestamp minus lag, and an error is reported when there are none or the data is stale.", "quantifier": "all sample windows and timestamps", "why_tests_cant": "All placements of the cut-off timestamp among samples.", "anchors": ["crates/gas-price/src/l1.rs: get_average_prices"]}
{"id": "C49", "title": "The L2 base gas price stays bounded and moves the right way", "statement": "The next base price is never below the minimum once at or above it, moves up when usage is above target and down when below by at most 1/48th, and prices below the minimum recover towards it without overshooting.", "quantifier": "all 128-bit prices and 64/128-bit gas amounts", "why_tests_cant": "Overflow and rounding behaviours over 2^300 inputs.", "anchors": ["crates/gas-price/src/l2.rs: calculate_next_base_gas_price"]}
{"id": "C50", "title": "Starknet versions round-trip and compare correctly", "statement": "Parsing the text of a version returns the version; packing into 32 bits and back is the identity; comparison is lexicographic by components.", "quantifier": "all versions and version strings", "why_tests_cant": "2^32 versions; text format drops trailing zero component and prints the zero version as empty text.", "anchors": ["crates/common/src/lib.rs: StarknetVersion"]}
{"id": "C51", "title": "Transaction query-version flag is lossless", "statement": "Setting the query flag of a version below 2^128 and removing it gives the version back, the flag is observable, and setting it twice is the same as once.", "quantifier": "all transaction versions", "why_tests_cant": "2^128 values; bit masks at byte 15 of 32.", "anchors": ["crates/common/src/lib.rs: TransactionVersion"]}
{"id": "C52", "title": "Block hash preimages determine the header", "statement": "For each hashing scheme, two headers with the same hash preimage agree on all fields that the scheme covers, and verification answers match only if the header's hash equals the scheme's hash selected by chain and version.", "quantifier": "all pairs of headers", "why_tests_cant": "Packed counts and version-dependent field sets over all pairs.", "anchors": ["crates/block-commitments/src/lib.rs: compute_final_hash, compute_final_hash_v0, compute_final_hash_v1, concatenate_counts, gas_prices_to_hash, verify_block_hash"]}
{"id": "C53", "title": "Blockchain pruning keeps the configured number of blocks", "statement": "After every L1 checkpoint or L2 head event, no block at or above the pruning point minus the configured number is deleted, deleted blocks are an initial segment, and pruning never passes the lower of L1 checkpoint and L2 head minus the number kept.", "quantifier": "all event sequences and configurations", "why_tests_cant": "Interleavings of L1 checkpoints and L2 heads in both orders.", "anchors": ["crates/pathfinder/src/state/sync.rs: perform_blockchain_pruning", "crates/storage/src/connection/pruning.rs: prune_block"]}
{"id": "C54", "title": "Field powers and square roots are exact", "statement": "For every field element and every 256-bit exponent, raising the element to the exponent gives the residue of the integer power modulo the field's prime. For every element of the base field the square root routine ends without panicking; if it returns a value, the square of that value is the input, and if it returns nothing, the input has no square root.", "quantifier": "all field elements, all 256-bit exponents", "why_tests_cant": "the field has about 2^251 elements and the loop count of the square root depends on the input's 2-adic order, which random tests do not spread over its 192 levels", "anchors": ["crates/crypto/src/algebra/field/montfelt/pow.rs: pow", "crates/crypto/src/algebra/field/montfelt/sqrt.rs: sqrt"]}
{"id": "C55", "title": "Classes are visible exactly from their first declaration", "statement": "At every stored block, looking up a class definition finds the class exactly if a block of the present chain up to this one declared it, explicitly or by deploying a contract of it, and reports the first such block; reorgs and pruning do not change this.", "quantifier": "all sequences of blocks, class downloads, reorgs and pruning, all stored blocks and classes", "why_tests_cant": "Whether a class is visible depends on the whole history of declarations, re-declarations, orphaned blocks and pruned blocks; tests cover a few fixed histories.", "anchors": ["crates/storage/src/connection/class.rs: class_definition_at_with_block_number", "crates/storage/src/connection/state_update.rs: insert_state_update_data", "crates/storage/src/connection/block.rs: purge_block", "crates/storage/src/pruning.rs: prune_block"]}
{"id": "C56", "title": "A verified gateway block is bound by its hash", "statement": "Verification of a block from the gateway answers match exactly if every commitment the block states equals that of its contents and the block's hash is that of the header so completed; and two blocks that verify with the same hash have the same transactions (hash and signature), the same events and receipts, in the same order, and the same header fields, as far as the hashing scheme of their version covers them, unless a hash collision can be exhibited.", "quantifier": "all pairs of gateway blocks, of any versions, on any chain", "why_tests_cant": "A test compares one block with one recorded hash; binding is about all other blocks that might carry this hash.", "anchors": ["crates/block-commitments/src/lib.rs: verify_gateway_block_commitments_and_hash, header_from_gateway_block, verify_block_hash, calculate_transaction_commitment, calculate_receipt_commitment, calculate_event_commitment"]}
{"id": "C58", "title": "Downloaded blocks are stored as one linked chain", "statement": "Whatever the feeder gateway answers, and whenever downloads fail, the download task ends and is restarted, the chain is reorganised at the gateway, or the process crashes: every stored block names the stored block before it as its parent, and the stored block numbers have no gap.", "quantifier": "all gateways (arbitrary answers that may change at every request), all schedules of the download and storing tasks, all crash and restart points", "why_tests_cant": "Tests script a gateway and a schedule; the claim is about every interleaving of bulk download, tracking, reorgs, restarts of the download task and a storing task that lags behind.", "anchors": ["crates/pathfinder/src/state/sync/l2.rs: sync, bulk_sync, download_block, reorg, BlockChain", "crates/pathfinder/src/state/sync.rs: sync, consumer, latest_n_blocks"]}
{"id": "C59", "title": "The node converges to the gateway's chain", "statement": "A roll-back goes to a block which the gateway still serves and drops (below the head) only blocks it no longer serves. If the gateway stays at one valid chain that is not a prefix of what the node has, and the fork is within the cached blocks, then after at most one turn per block and one more the node has announced exactly that chain, and it stores it once the storing task has caught up.", "quantifier": "all node states reachable under any earlier gateway behaviour, all chains, all interleavings of the tasks without failures", "why_tests_cant": "Convergence must hold from every reachable combination of cache, head and queued events and for every fork depth.", "anchors": ["crates/pathfinder/src/state/sync/l2.rs: sync, reorg, download_block", "crates/pathfinder/src/state/sync.rs: consumer"]}
{"id": "C57", "title": "A verified transaction hash binds the transaction", "statement": "Checking a transaction against a hash always gives an answer, and says yes exactly when the hash follows one of the published formulas for its kind and version. Barring hash collisions, two transactions that both check against one hash are for the same chain, of the same kind, and agree on every field the formula covers; for the transactions of accounts (declare v1-v3, deploy account, invoke v1 and v3) that is everything but the signature. The hash used for simulating a transaction never checks as the hash of a transaction.", "quantifier": "all transactions of all versions, all chain ids, all hashes", "why_tests_cant": "Tests recompute the hashes of a few known transactions; they cannot show that no two different transactions share one, nor that no field was left out of a formula.", "anchors": ["crates/common/src/transaction.rs: Transaction::verify_hash, TransactionVariant::calculate_hash, calculate_legacy_hash, V3Hasher, PreV3Hasher, LegacyHasher"]}
{"id": "C60", "title": "Contract addresses bind class, salt and constructor calldata", "statement": "The address computed for a deployed contract is the Pedersen chain hash over the fixed prefix, deployer zero, salt, class and hash of the calldata, modulo 2^251-256; computing it never panics; two deployments get the same address only when class, salt and calldata agree or the hashes collide modulo 2^251-256. Filling addresses into transactions changes nothing else.", "quantifier": "all calldata (of less than 2^60 words), salts and classes; all transactions", "why_tests_cant": "Tests compare a few known addresses; the range check that panics and the wrap-around depend on the hash value.", "anchors": ["crates/common/src/lib.rs: ContractAddress::deployed_contract_address, MAX_CONTRACT_ADDRESS", "crates/common/src/transaction.rs: TransactionVariant::calculate_contract_address"]}
{"id": "C61", "title": "L1 to L2 message hashes bind the message", "statement": "The message hash of an L1 handler transaction is Keccak-256 of sender, receiver, nonce, selector, payload length and payload, each as a 32-byte big-endian word. Two L1 handler transactions with a sender have the same message hash only if they are equal, or Keccak-256 collides.", "quantifier": "all L1 handler transactions with non-empty calldata", "why_tests_cant": "Injectivity of the encoding is a statement about all pairs of messages.", "anchors": ["crates/common/src/transaction.rs: L1HandlerTransaction::calculate_message_hash"]}
{"id": "C62", "title": "Only verified blocks are stored", "statement": "Whatever the gateway answers and however tasks are scheduled, restarted or crash, every header in the database is the header of a block that the gateway served in an accepted status, with every transaction hash verified and the block hash verified (a block hash that does not match is let through only when the operator allows mismatches).", "quantifier": "all gateways, all schedules, crashes and restarts, both validation modes, all history modes", "why_tests_cant": "There are two download paths (bulk and tracking), each with buffering, reorg and restart; the claim is about every path to the database.", "anchors": ["crates/pathfinder/src/state/sync/l2.rs: download_block, bulk_sync, verify_block_and_state_update", "crates/pathfinder/src/state/sync.rs: consumer, l2_update"]}
{"id": "C63", "title": "Estimated L2 gas limits suffice and are close to minimal", "statement": "Whatever the execution of a transaction does with a given L2 gas limit, the limit that an estimate reports is one with which the transaction runs on the state given, and the state afterwards is that of exactly one execution (the trial runs leave no trace). The search ends after at most 65 turns without panicking. If there is a least sufficient limit, the estimate is at least that and exceeds it by at most half a million units, or is what was consumed plus the margin. The amount of gas covered by a balance is the largest amount that the balance can pay.", "quantifier": "all execution functions, states, initial and maximal limits, margins, both fee and revert modes; all balances, prices and tips", "why_tests_cant": "The number of gas needed is a property of the contract code; a binary search with boundary conditions, saturation and rollback must work for every threshold.", "anchors": ["crates/executor/src/transaction.rs: find_l2_gas_limit_and_execute_transaction, simulate_transaction, execute_transaction, get_max_l2_gas_amount_covered_by_balance", "crates/util/src/percentage.rs: Percentage::of"]}
{"id": "C64", "title": "Calls tracing the same block share one execution and its result", "statement": "However calls that trace blocks are interleaved, and whatever fails or is dropped from the cache, a result that a call answers with is the result of an execution of the same block with the same flag. A call waits only while the execution it waits for goes on. While nothing is dropped and no execution fails without a result, each block is executed once per flag; while no execution fails without a result, every call that returns has a result.", "quantifier": "all interleavings of lookups, completions, failures, receptions and evictions, any number of calls and blocks", "why_tests_cant": "Lost wake-ups and double executions depend on the interleaving between threads; evictions may happen at any point.", "anchors": ["crates/executor/src/simulate.rs: trace, TraceCache, CacheItem"]}
{"id": "C65", "title": "Contract state read over the RPC is that of the named block, pending blocks included", "statement": "starknet_getNonce, getClassHashAt and getStorageAt answer, for a block id naming a stored block (number, hash, l1_accepted, latest), with the nonce, class hash and storage value that result from applying the state updates of blocks 0 up to that block, 0 for an unset nonce or slot of an existing contract and CONTRACT_NOT_FOUND for a contract that does not exist; last_update_block is the last block that wrote the slot. An id naming no stored block is answered with BLOCK_NOT_FOUND. For pre_confirmed the answer is that after the stored blocks, the pre-latest block if it is not stored yet, and the pre-confirmed transactions in order, provided these blocks follow the latest stored one; otherwise it is that of the latest block. No pending data make a read panic.", "quantifier": "every history of synchronisation events (blocks, reorgs, L1 updates, pruning), every block id, contract and key, every list of pre-confirmed transaction state diffs and every pre-latest block", "why_tests_cant": "The answer merges an unbounded history of stored diffs, pruned and reorganised in any order, with any sequence of pending diffs; tests only fix a few small chains with one pending block.", "anchors": ["crates/rpc/src/method/get_nonce.rs:get_nonce", "crates/rpc/src/method/get_storage_at.rs:get_storage_at", "crates/rpc/src/method/get_class_hash_at.rs:get_class_hash_at", "crates/rpc/src/pending.rs:PendingWatcher::get,PendingData::try_from_pre_confirmed_and_pre_latest", "crates/rpc/src/types.rs:BlockId", "crates/gateway-types/src/reply.rs:StateDiff::extend,deduplicate,From<StateUpdate>", "crates/storage/src/connection/state_update.rs:storage_value_with_block"]}
{"id": "C66", "title": "Transactions looked up over the RPC are those of the stored and the pending blocks", "statement": "starknet_getTransactionByHash answers with a transaction that has the given hash and is in a stored block or in a pending block that follows the latest stored one, and with TXN_HASH_NOT_FOUND only if there is none. getTransactionReceipt answers with the receipt of that transaction, its events and the number and hash of the block it is in; it is ACCEPTED_ON_L1 exactly if the block is not above the last one accepted on L1, ACCEPTED_ON_L2 otherwise, PRE_CONFIRMED without block hash if it is pending. getTransactionStatus agrees with the receipt, answers CANDIDATE for transactions that are not executed yet and asks the gateway for unknown ones. By block id and index the answer is the transaction at that place of the block named, and getBlockTransactionCount is their number. Storing the block that was pending loses no receipt. No request panics.", "quantifier": "every history of stored, purged and pruned blocks and L1 pointer updates, every pre-confirmed and pre-latest block, every hash, block id and index, every answer of the gateway", "why_tests_cant": "The answer depends on two tables kept in step through any sequence of inserts and deletes, and on pending data replaced at any moment; tests fix one small chain and one pending block.", "anchors": ["crates/rpc/src/method/get_transaction_by_hash.rs:get_transaction_by_hash", "crates/rpc/src/method/get_transaction_receipt.rs:get_transaction_receipt", "crates/rpc/src/method/get_transaction_status.rs:get_transaction_status", "crates/rpc/src/method/get_transaction_by_block_id_and_index.rs:get_transaction_by_block_id_and_index", "crates/rpc/src/method/get_block_transaction_count.rs:get_block_transaction_count", "crates/storage/src/connection/transaction.rs:insert_transaction_data,transaction,transaction_with_receipt,transaction_at_block,transaction_block_count", "crates/rpc/src/pending.rs:PendingWatcher::get,find_transaction,find_finalized_tx_data"]}
{"id": "C67", "title": "Pending data shown over the RPC follow the gateway and never go back", "statement": "The pending data given to the RPC are always data the gateway had at some poll while the node was near the head of the chain, validated and accepted only when they follow the latest stored block; over time they are replaced only by newer ones (a later block, more transactions, or the same with the pre-latest block stored). Data newer than everything polled before are shown once delivered. No answer of the gateway makes the node panic.", "quantifier": "every sequence of polls, gateway answers (also failing, stale and inconsistent ones), deliveries and changes of the latest block, in any interleaving", "why_tests_cant": "Polling, block synchronisation and delivery run concurrently; tests drive the poller with fixed answers and never with the consumer and a moving chain.", "anchors": ["crates/pathfinder/src/state/sync/pending.rs:poll_pre_confirmed,fetch_pre_latest", "crates/pathfinder/src/state/sync.rs:consumer (PreConfirmed)", "crates/rpc/src/pending.rs:PendingData::try_from_pre_confirmed_and_pre_latest"]}
{"id": "C68", "title": "Every JSON-RPC request gets its own answer, however batches are scheduled", "statement": "A JSON-RPC request over HTTP is answered with its id and the output of its method, METHOD_NOT_FOUND if the method is unknown, an internal error if the method panics, INVALID_REQUEST with id null if it is not a valid request, and not at all if it has no id. The answer to a batch consists of these answers in the order of the requests, for every order in which they end; no more than the configured number run at a time, and the batch always ends if its methods do. Texts that are not JSON, empty batches and, if disabled, all batches are refused. Over a websocket messages are answered in the order they arrive in the same way.", "quantifier": "every list of JSON values, every result or panic of every method, every interleaving of the executions, every concurrency limit, every sequence of websocket messages", "why_tests_cant": "The order in which the requests of a batch end is up to the scheduler; tests see one order with a few requests.", "anchors": ["crates/rpc/src/jsonrpc/router.rs:RpcRouter::run_request,rpc_handler,run_concurrently", "crates/rpc/src/jsonrpc/router/method.rs:handle_json_rpc_body", "crates/rpc/src/jsonrpc/router/subscription.rs:handle_json_rpc_socket,handle_request", "crates/rpc/src/jsonrpc/request.rs:RpcRequest", "crates/rpc/src/jsonrpc/response.rs:RpcResponse"]}
{"id": "C69", "title": "Subscriptions over a websocket are announced first, lose nothing and end when asked to", "statement": "On one websocket connection, however its message loop, the requests of a batch and the tasks of the subscriptions interleave: nothing of a subscription is sent before the answer with its id; no id is given twice; what is sent of a subscription are its first items in order, without gaps or repetitions; as long as the client does not end it and its stream goes on, every item it has come to is sent, whatever happens to other subscriptions; ending a subscription succeeds once, for an id that was given, and only if its stream has not ended; after the answer to it at most one more item is sent.", "quantifier": "every sequence of messages and batches, every interleaving of all tasks, every point at which a stream ends or fails or the connection is closed; fewer than 2^32 subscriptions on one connection", "why_tests_cant": "The races between unsubscribing, sending and the start of a stream depend on the scheduler; a test sees one interleaving.", "anchors": ["crates/rpc/src/jsonrpc/router/subscription.rs:handle_json_rpc_socket,handle_request,RpcSubscriptionEndpoint::invoke,SubscriptionSender::send,SubscriptionSender::send_err,SubscriptionsGuard,Subscriptions"]}
{"id": "C70", "title": "The Starknet states taken from L1 are those of its finalized chain, in order and up to the newest", "statement": "The first state reported is that of the Starknet contract at the finalized L1 block. As long as the subscription to the contract's logs is not lost and a removal of logs always arrives before the blocks that replace them are polled as finalized: every later state reported was logged by a finalized block of the L1 chain, in the order of the chain and each log at most once; and once the client has handled that block f is finalized, and all that was sent about the blocks up to f, it has reported the last state of every block up to f that was mined since it subscribed, and if any of them logs a state the last one reported is the contract's state at f.", "quantifier": "every L1 chain, every sequence of mined, replaced and finalized blocks, every interleaving of the log events and the polled block numbers, any number of logs per block", "why_tests_cant": "Reorganisations of L1 and the race between two independent sources of events (logs and finalized blocks) cannot be enumerated by tests.", "anchors": ["crates/ethereum/src/lib.rs:EthereumClient::sync_and_listen,EthereumClient::get_starknet_state", "crates/pathfinder/src/state/sync/l1.rs:sync"]}
{"id": "C71", "title": "Headers synced from peers are those of the chain L1 vouches for", "statement": "In p2p sync, if the checkpoints taken from L1 all lie on one chain of valid headers and the block hash binds a header: at any moment every stored header at or below the newest checkpoint saved is that of this chain, whatever peers send and wherever the node is stopped and restarted; when header sync finishes, all headers up to the checkpoint are stored, and they stay while newer blocks are tracked; a tracked block is stored only on top of its parent; and peers that send the headers asked for fill the gap they were asked for.", "quantifier": "every chain, every sequence of checkpoints on it, all data sent by peers, every gap, every crash point, every fork that was tracked before", "why_tests_cant": "The input is adversarial and unbounded, and the sync may be interrupted after any database transaction; tests cover a few streams on an intact database.", "anchors": ["crates/pathfinder/src/sync/headers.rs:next_gap,BackwardContinuity,ForwardContinuity,VerifyHashAndSignature,Persist", "crates/pathfinder/src/sync/checkpoint.rs:Sync::run,sync_headers,handle_header_stream,CheckpointAnalysis,rollback_to_anchor,persist_anchor", "crates/pathfinder/src/sync/stream.rs:pipe_impl,try_chunks", "crates/pathfinder/src/sync/track.rs:Sync::run,StoreBlock", "crates/storage/src/connection/block.rs:next_ancestor,next_ancestor_without_parent,insert_block_header", "crates/p2p/src/sync/client/peer_agnostic.rs:header_stream"]}
{"id": "C72", "title": "Tracking the head over p2p stores each block with the data its header commits to", "statement": "While the node follows the head of the chain over p2p, with transactions, events, state diffs and classes fetched from different peers at the same time: the i-th block stored is that of the i-th header received, with its signature; its transactions, events, state diff and classes are those the header commits to, and the state after it has the header's state commitment. The tasks never block each other: when they can do no more and wait for no peer, all blocks are stored or tracking has ended. Their number of steps is bounded in the number of headers. If all peers answer with the data of the chain, no block is left out and tracking does not end.", "quantifier": "every sequence of headers, all answers of peers, every interleaving of the tasks, all channel capacities of at least one", "why_tests_cant": "The data of a block pass through ten concurrent tasks and sixteen bounded channels; which interleavings and which wrong answers occur is up to the scheduler and the peers.", "anchors": ["crates/pathfinder/src/sync/track.rs:Sync::run,HeaderFanout,TransactionsFanout,StateDiffFanout,TransactionSource,EventSource,StateDiffSource,ClassSource,BlockStream,StoreBlock", "crates/pathfinder/src/sync/stream.rs:Source,SyncReceiver", "crates/pathfinder/src/sync/transactions.rs:CalculateHashes,VerifyCommitment", "crates/pathfinder/src/sync/events.rs:VerifyCommitment", "crates/pathfinder/src/sync/state_updates.rs:VerifyCommitment", "crates/pathfinder/src/sync/class_definitions.rs:VerifyLayout,VerifyHash,CompileSierraToCasm,VerifyClassHashes"]}
{"id": "C73", "title": "The state commitment is that of the state, and determines it", "statement": "However the blocks of a history reach the node (one by one from the gateway or consensus, one by one over p2p, or many at once as a checkpoint batch), the state commitments the node computes are those of the states the updates lead to: the hash of the contract tree with one leaf per contract (class, storage root, nonce) and of the class tree. A history is stored exactly if every contract an update names has a class and each header's commitment is the commitment of its state. Two nodes with the same state commitment have the same contracts, classes, nonces, storage and class declarations, unless hash computations collide.", "quantifier": "every sequence of updates with any contracts, keys and values, every way and mix of ways they arrive, every tree height, all hash functions (for the last part: without collision among the computations made)", "why_tests_cant": "The commitment is built incrementally from rows of many earlier blocks, read through two database connections and in three different orders; a stale or missed row shows only in a particular history.", "anchors": ["crates/merkle-tree/src/starknet_state.rs:update_starknet_state", "crates/merkle-tree/src/contract_state.rs:update_contract_state,calculate_contract_state_hash,ContractStateUpdateResult::insert", "crates/common/src/lib.rs:StateCommitment::calculate,calculate_class_commitment_leaf_hash,is_system_contract", "crates/pathfinder/src/state/sync.rs:l2_update", "crates/pathfinder/src/sync/track.rs:StoreBlock", "crates/pathfinder/src/sync/state_updates.rs:merge_state_updates,batch_update_starknet_state", "crates/storage/src/connection/trie.rs:contract_root,contract_root_index,storage_root_index,class_root_index,insert_contract_root,insert_storage_root,insert_class_root", "crates/storage/src/connection/state_update.rs:contract_nonce,contract_class_hash,insert_state_update_data"]}
{"id": "C74", "title": "Storage proofs prove the state of the block asked for, and cannot lie about it", "statement": "starknet_getStorageProof, asked for a stored block (by number, hash or tag) and at most 100 keys, answers with the hash of the block, two roots that make up its state commitment, and nodes that show for every class, contract and storage key asked for what the state after that block holds under it or that it holds nothing, however many blocks came later. More keys, the pre-confirmed block and unknown blocks are refused with the errors for that. A client that checks an answer from any server against a state commitment cannot be shown a class, nonce, storage value, absent contract or compiled class that is not that of the state, unless hash computations collide.", "quantifier": "every history of updates and ways they arrive, every block of it that arrived alone or ended a batch, every later history, every request, every tree height and hash functions without zeros; for the last part every answer from anyone", "why_tests_cant": "A proof mixes nodes of the tree with rows of leaves, nonces, classes and roots kept by block in separate tables; any one of them read for the wrong block gives a proof that fails or shows another state, in particular histories only.", "anchors": ["crates/rpc/src/method/get_storage_proof.rs:get_storage_proof,get_class_proofs,get_contract_proofs,get_contract_storage_proofs", "crates/merkle-tree/src/tree.rs:get_proofs", "crates/merkle-tree/src/class.rs:get_proofs", "crates/merkle-tree/src/contract.rs:get_proofs", "crates/merkle-tree/src/storage.rs", "crates/storage/src/connection/trie.rs:contract_root,contract_root_index,storage_root_index,class_root_index", "crates/storage/src/connection/state_update.rs:insert_state_update_data,contract_nonce,contract_class_hash", "crates/merkle-tree/src/contract_state.rs:ContractStateUpdateResult::insert"]}
{"id": "C75", "title": "A client following a transaction is told true statuses in order, misses no acceptance, and hears of reorgs", "statement": "starknet_subscribeTransactionStatus sends statuses that only go forward (received, candidate, pre-confirmed, accepted on L2, accepted on L1, rejected) until a reorg is reported, and nothing after a rejection. Every status was true of the node at a moment since the last reported reorg: with the block and the execution status it had there. Acceptance of a transaction that is stored when the subscription starts, or later, is reported by the time the subscription is idle, unless the block is reorged away or the channel overflows.", "quantifier": "every interleaving of the subscription's reads, subscriptions and channel receptions with commits, announcements, reorgs, L1 updates, changes of the pending data, submissions, gateway answers and overflows; any number of them", "why_tests_cant": "The task reads the database, the pending data and two channels at separate moments while the sync task commits and announces; tests run one order of these events, and a lost or false status needs another.", "anchors": ["crates/rpc/src/method/subscribe_transaction_status.rs:SubscribeTransactionStatus::subscribe,current_known_tx_status,pending_data_tx_status,Sender::send_and_update", "crates/pathfinder/src/state/sync.rs:consumer"]}
{"id": "C76", "title": "Peers serve the blocks asked for, and a node fetching a range from honest peers gets exactly the chain's data", "statement": "A request for blocks is answered with the data of the blocks asked for, in the order asked for, at most 100 of them and fewer only where the chain ends, and then Fin. A node that fetches transactions, classes, events or state diffs of a range of blocks gives its blocks from the first on, in order, each once and none beyond the range; from honest peers (which may be behind, fail or break off at any point) each block comes with exactly the chain's data, and every complete answer gives at least 100 more blocks. Whatever peers send, each block given has the number of items its header commits to, and no peer can crash the node.", "quantifier": "every database, request (start by number or hash, direction, step, limit), range of blocks, list of expected numbers of items, sequence of peers and of their answers cut off or failing anywhere; any lengths", "why_tests_cant": "The client cuts one flat sequence of items from many peers into blocks by expected counts; an error shows only for particular positions of empty blocks, peer changes and failures, and with adversarial answers.", "anchors": ["crates/pathfinder/src/p2p_network/sync/sync_handlers.rs:iterate,get_start_block_number,get_next_block_number,get_state_diff", "crates/p2p/src/sync/client/peer_agnostic.rs:transaction_stream,class_definition_stream,event_stream,state_diff_stream,state_diff_for_block,make_request"]}
{"id": "C77", "title": "Stored transactions, receipts and events read back unchanged", "statement": "Whatever blocks were inserted, given events and removed before, the transactions and receipts of a stored block read back exactly as stored and in their order, with their events once these are stored; a transaction is found by its hash with its receipt, events and block, and a hash that is not stored is not found; a block that is not stored reads as empty; a block is refused exactly if its number or one of its transactions is stored already or it has a transaction twice. Blocks written by any of the older versions of the node read as what was written.", "quantifier": "every history of insertions, event updates and removals; every transaction variant, receipt and event with values of their types; every list length; every blob version", "why_tests_cant": "Every field of fifteen transaction variants, in five blob versions, goes through a hand-written conversion and a variable-length encoding whose form depends on the value; a test tries a few values.", "anchors": ["crates/storage/src/connection/transaction.rs:insert_transaction_data,update_events,transaction,transaction_with_receipt,transaction_data_for_block,transactions_with_receipts_for_block,events_for_block,transaction_hashes_for_block,dto", "crates/storage/src/schema/revision_0057.rs:128-138"]}
{"id": "C78", "title": "A class hash is of the class and of nothing else", "statement": "The hash of a Cairo 0 class is the hash chain of its entry points by type, its builtins, the truncated Keccak of what Python's json.dumps writes of its ABI and program (without debug info, without the attribute entries older compilers did not write, and with named tuple types in the old form where no compiler version is given) and its bytecode; that of a Sierra class is the Poseidon hash of its version, entry points, ABI and program. A malformed definition is refused without a panic. Definitions that agree in what is covered have one hash; without a hash collision, definitions of one hash agree in all of it, and no Sierra class has the hash of a Cairo 0 class.", "quantifier": "every class definition of either kind, with any JSON values of any size and depth; all hash functions, with Keccak giving 32 bytes", "why_tests_cant": "Tests compare the hashes of a handful of deployed classes. They cannot show that no two classes share a hash because of how they are written as text, nor that every character is written as Python writes it.", "anchors": ["crates/class-hash/src/lib.rs:compute_class_hash,compute_cairo_class_hash,compute_sierra_class_hash,prepare_json_contract_definition,PythonDefaultFormatter,truncated_keccak", "crates/common/src/class_definition.rs:SelectorAndOffset,SelectorAndFunctionIndex"]}
{"id": "C79", "title": "What a peer sends of a block arrives as it was", "statement": "A node that sends the headers, transactions, receipts and events of a block to a peer that asks for them makes it reconstruct them: every header with its signature and every event exactly; every transaction but for two fields that its hash does not cover, with the addresses of deployed contracts computed again; every receipt but for the segment arena counter, the data gas in the total, and bits of an L1 address past 160. Whatever bytes a peer sends instead, the node does not panic, what it accepts is made of values in the range of their types, and a transaction it accepts has the hash and address that its content gives, with the receipt that came with it at its place.", "quantifier": "every block with any number of transactions of all kinds and receipts, all headers and events; any bytes in the fields of messages; all hash functions", "why_tests_cant": "Tests convert a few generated values there and back. They cannot show that every value of every kind survives, nor that no message makes the receiver panic or accept a value out of range.", "anchors": ["crates/p2p/src/sync/client/conv.rs:ToDto,TryFromDto", "crates/p2p/src/sync/client/types.rs:SignedBlockHeader,Receipt", "crates/p2p_proto/src/common.rs", "crates/p2p_proto/src/transaction.rs", "crates/p2p_proto/src/sync/header.rs", "crates/p2p_proto/src/sync/receipt.rs", "crates/p2p_proto/src/sync/event.rs", "crates/pathfinder/src/sync/transactions.rs:CalculateHashes"]}
{"id": "C80", "title": "Points of the Stark curve form a group, and the curve code and the Pedersen hash compute in it", "statement": "The points of the Stark curve with chord-and-tangent addition are a commutative group without a point of order two, in which the generator has exactly the curve order. Adding, doubling, negating and multiplying affine and projective points, adding an affine to a projective one, and multiplying the generator from its table give the sums, opposites and multiples there and never panic. Finding a point by its x coordinate succeeds exactly if there is one. The Pedersen hash of two field elements is the x coordinate of the shift point plus the low 248 bits and the rest of each times its two constant points. Converting between affine and projective keeps the point.", "quantifier": "all points of the curve in every representation (any z), all field elements and scalars, all tables that hold the right multiples", "why_tests_cant": "The tests add and multiply a handful of points. There are about 2^252 points and as many scalars, and the exceptional cases (equal x, infinity, a chunk that is zero) are hit by random inputs with negligible probability.", "anchors": ["crates/crypto/src/algebra/curve/affine.rs:AffinePoint", "crates/crypto/src/algebra/curve/projective.rs:ProjectivePoint", "crates/crypto/src/algebra/curve/gen_mul.rs:gen_multiply_elm", "crates/crypto/src/algebra/curve/params.rs", "crates/crypto/src/hash/pedersen/hash.rs:pedersen_hash", "crates/crypto/src/hash/pedersen/gens.rs"]}
{"id": "C81", "title": "Signatures on the Stark curve: what is signed verifies, and what verifies is a signature", "statement": "Verifying (r, s) on a message z against the x coordinate of a public key accepts exactly the ECDSA signatures of z under that key with z below 2^251 and r and s between 1 and 2^251 - 1, and says otherwise whether the key, the message or the signature is at fault, without panicking. The public key of a secret below the curve order is the x coordinate of that multiple of the generator. Signing with a secret, a message below the order and a usable random number gives r, the x coordinate of that multiple of the generator, and s with s * k = z + r * secret modulo the order, and the result verifies against the public key. A block's signature is verified on its hash.", "quantifier": "all public keys, secrets, messages, random numbers and pairs (r, s) that field elements can hold; all sequences of random draws; all generator tables that hold the right multiples", "why_tests_cant": "The tests verify five recorded signatures and refuse four altered ones. Pairs for which the two parts of the sum cancel, numbers at or above the curve order, and s = 0 never come up in recorded signatures but can be sent by a peer or a gateway.", "anchors": ["crates/crypto/src/signature/ecdsa.rs:ecdsa_verify_partial", "crates/crypto/src/signature/ecdsa.rs:ecdsa_verify_inner", "crates/crypto/src/signature/ecdsa.rs:ecdsa_verify", "crates/crypto/src/signature/ecdsa.rs:ecdsa_sign", "crates/crypto/src/signature/ecdsa.rs:ecdsa_sign_k", "crates/crypto/src/signature/ecdsa.rs:get_pk", "crates/common/src/signature.rs:BlockCommitmentSignature::verify"]}
{"id": "C82", "title": "The Poseidon hash is the published one, though computed with fewer round constants", "statement": "The permutation of three field elements gives, for every state, what the published Poseidon permutation with its 91 rounds and 273 round constants gives, although the code has 107 constants and adds one to one element only in the 83 middle rounds; it never indexes outside of its table. It permutes: every state is the result of exactly one state. Hashing two elements, hashing a list at once and hashing it element by element give the published hashes of the numbers the elements stand for.", "quantifier": "all states, all pairs and all lists, of any length, of field elements in Montgomery form", "why_tests_cant": "The tests have one permuted state and a few hashes. The 107 constants are the result of a calculation that moves round constants through the linear layer; that the outcome is the same for every state is a statement about all 2^756 of them.", "anchors": ["crates/crypto/src/hash/poseidon/permutation.rs:permute", "crates/crypto/src/hash/poseidon/permutation.rs:mix", "crates/crypto/src/hash/poseidon/permutation.rs:full_round", "crates/crypto/src/hash/poseidon/permutation.rs:partial_round", "crates/crypto/src/hash/poseidon/consts.rs:POSEIDON_COMP_CONSTS", "crates/crypto/src/hash/poseidon/hash.rs:poseidon_hash", "crates/crypto/src/hash/poseidon/hash.rs:poseidon_hash_many", "crates/crypto/src/hash/poseidon/hash.rs:PoseidonHasher", "crates/crypto/spec/poseidon3.txt"]}
{"id": "C83", "title": "Connections to peers stay within the limits, and making room disconnects only whom it should", "statement": "Whatever peers connect, are dialed, answer and go, and whenever: the numbers of direct and of relayed inbound connections never exceed the configured limits, nor does the number of outbound ones. A peer connecting to us disconnects at most peers of its own kind, and only at the limit; never a peer favoured by the secret in one of its four favoured network groups, nor one of the eight that answer pings fastest; of the others, the half connected for longest stay, and the youngest of the most populous network group goes. Dialing disconnects only peers that we dialed and that were flagged as not useful, and only at the limit. An evicted peer is kept out for the eviction timeout. Peers are let on only with a whitelisted address, not again from one address within the timeout, and not beyond the configured rate. None of it panics.", "quantifier": "all sequences, of any length, of pending, established, failed and closed connections, pings and flaggings, of any peers, addresses and times; all configurations and all secrets", "why_tests_cant": "The tests have a handful of peers on one host, one limit at a time, and secrets chosen by the test. The limits are about every interleaving of dialing, connecting, evicting and closing, with counts read at one moment and used at another; the resistance to attackers is about every set of peers an attacker may form.", "anchors": ["crates/p2p/src/core/behaviour.rs:handle_established_inbound_connection", "crates/p2p/src/core/behaviour.rs:handle_established_outbound_connection", "crates/p2p/src/core/behaviour.rs:handle_pending_inbound_connection", "crates/p2p/src/core/behaviour.rs:handle_pending_outbound_connection", "crates/p2p/src/core/behaviour.rs:on_swarm_event", "crates/p2p/src/core/behaviour.rs:evict_inbound_peer", "crates/p2p/src/core/behaviour.rs:evict_outbound_peer", "crates/p2p/src/core/behaviour.rs:prevent_evicted_peer_reconnections", "crates/p2p/src/core/behaviour.rs:not_useful", "crates/p2p/src/peers.rs:PeerSet", "crates/p2p/src/core.rs:Config"]}
{"id": "C84", "title": "Contract execution works with the state and the classes of the block it is on top of", "statement": "An execution on top of a stored block reads the storage, nonces and class hashes of the chain as of that block, zero where nothing was set. It is given the code of every class that a block up to it declared, and of no other, however executions share, fill and overflow the cache of classes, whatever the sync task stores, reorganizes or prunes meanwhile, and however old the database snapshot of the execution is. On top of a pending block it is also given the classes that were only downloaded. The cache stays within its size.", "quantifier": "all sequences of sync events and of class look-ups by any number of concurrent executions, each with any earlier database snapshot, at any stored block, with the writing to the cache delayed arbitrarily; all classes, addresses and keys", "why_tests_cant": "The cache is global to the process and outlives reorgs; whether a look-up is answered rightly depends on all earlier look-ups by others, on the snapshots they had and on what was reorganized since. Tests have one execution on a fresh database.", "anchors": ["crates/executor/src/state_reader.rs:PathfinderStateReader", "crates/executor/src/state_reader.rs:get_compiled_class", "crates/executor/src/state_reader.rs:non_cached_compiled_contract_class", "crates/executor/src/state_reader.rs:get_storage_at", "crates/executor/src/state_reader.rs:get_nonce_at", "crates/executor/src/state_reader.rs:get_class_hash_at", "crates/executor/src/lru_cache.rs:LruContractCache", "crates/storage/src/connection/class.rs:class_definition_with_block_number"]}
{"id": "C85", "title": "A proposal is executed on the state of the block below it, even if that is decided but not committed yet", "statement": "The execution of a proposal on top of a block that consensus has decided, but that may not be in the database yet, reads storage, nonces, class hashes and classes as of that block: what the last block up to it wrote, whether that block is held in memory as decided, is in the database, or both. Blocks above it are not seen. The same read gives the same value throughout the execution, whatever is committed meanwhile.", "quantifier": "all chains, all splits of them into stored and decided blocks, overlapping or not, all blocks to execute on top of, all contracts, keys and classes; all histories of the database, pruned or not", "why_tests_cant": "What is read depends on which of several decided blocks changed which part of a contract; the tests of the adapter have blocks that each change everything of a contract or nothing. The commit that happens during an execution is a matter of schedule.", "anchors": ["crates/executor/src/state_reader/storage_adapter/concurrent.rs:ConcurrentStorageAdapter", "crates/executor/src/state_reader/storage_adapter/concurrent.rs:decided::storage_value", "crates/executor/src/state_reader/storage_adapter/concurrent.rs:decided::contract_nonce", "crates/executor/src/state_reader/storage_adapter/concurrent.rs:decided::contract_class_hash", "crates/executor/src/state_reader/storage_adapter/concurrent.rs:find_contract_update", "crates/executor/src/state_reader/storage_adapter/concurrent.rs:find_class", "crates/executor/src/state_reader/storage_adapter/concurrent.rs:db_thread", "crates/common/src/l2.rs:DecidedBlocks", "crates/pathfinder/src/consensus/inner/p2p_task.rs:remove_decided_block"]}
