# A Rocq model of pathfinder: design

The code under study is eqlabs/pathfinder as found in `/repo` (Rust).  It is
read as text only; nothing in `/repo` is built or changed.  The model and the
proofs live in `rocq/theories` (logical name `Verif`), standard library only.

## Method

* Each Rust function studied is transcribed as a total Gallina function in a
  `*Model.v` file; every definition cites the file and lines it models and says
  where it simplifies.  Panics and errors are explicit result values.
* Specifications (what a user would expect, written without the model's
  helpers) live in `*Spec.v` files or next to the theorem.
* Proofs live in `*Proof.v` files; the theorems that answer a property of
  `properties.jsonl` are collected in `*Properties.v` files which contain
  nothing but `Theorem ... exact lemma.`, a `Print Assumptions` and concrete
  examples that meet the hypotheses.
* External primitives (Pedersen, Poseidon permutation, SipHash, SQLite, zstd,
  the blockifier executor, malachite's engine) are parameters of the theorems:
  every theorem is stated for all hash functions etc.  Collision resistance is
  never assumed: binding theorems return the colliding pair.  The code that
  computes Pedersen and Poseidon is modelled by itself (C80, C82).
* A property that the faithful model violates is recorded as a finding with a
  theorem named `..._refuted`, and the part that does hold is named
  `..._partial`.

## Plan per property

| property | what is modelled | how it is proved |
|---|---|---|
| C01, C02, C03 | `Felt` codecs on byte lists, with the code's buffer offsets and range check | round-trip and range theorems by induction on digit lists, `N` arithmetic |
| C04, C05 | limb arithmetic `adc/sbb/mac/acc` with 64-bit wrapping, Montgomery CIOS/SOS loops of both fields | refinement to arithmetic modulo p, carry invariants, `nia/lia` |
| C06, C07 | incremental hasher state machines over an arbitrary permutation / pairing hash | induction over the input list |
| C08, C09, C10 | the Patricia tree with unresolved, binary, edge and leaf nodes; set, delete, get, commit | representation invariant, refinement to a finite map, canonical form |
| C11, C14, C15 | commit producing nodes and removed indices, persistence with fresh indices, root table, pruning | invariants over storage generations |
| C12, C13 | proof generation and a verifier written independently | induction on the tree; collision extraction |
| C16 | bincode varint and bit packing, removal lists | codec round trip, for any content of unused bits |
| C17 | commitment trees of height 64 keyed by index; item hashes of every version | totality; binding by C09/C10 and parsing of the hashed words |
| C18, C19, C20, C21, C22 | the update tables as row sets; queries; prune, purge; reverse updates | row-set invariants, induction over blocks |
| C23, C24, C53 | the sync consumer's event handling over the stored chain | invariant over event sequences |
| C25, C26, C27 | state update values as association lists / maps; merge, lengths, commitment preimage | algebraic laws, injectivity by parsing |
| C28, C29, C30 | bloom filter, aggregate, key transformation for any hash pair | set inclusion by induction |
| C31, C33, C34 | event scan with paging, pending data, tokens | induction over the pages |
| C32 | running filter, roll-over, reorg, restart | invariant over operations |
| C35, C36 | subscription as a transition system; filters | invariant over all schedules; direct comparison |
| C37, C38, C39 | stream reassembly, sender, stream id codec | invariant over arrivals |
| C40, C41, C42 | proposal part validator, batch execution with deferral | regular-language characterisation; simulation |
| C43, C44, C45, C46 | WAL files and recovery, engine map, timeouts, validator sets | invariants over operations; arithmetic of rounds |
| C47, C48, C49 | gas price oracles in `Z`/`N` with saturating/checked operations | invariants and inequalities |
| C50, C51 | version codecs | round trip |
| C52 | header hash preimages of the four schemes, scheme selection | injectivity (packed counts modulo the prime, version text); exact answer of verification |
| C54 | field powers and square roots (Tonelli-Shanks) of the base field | loop invariants, Euler's criterion, primality certificates |
| C55 | class declaration rows and lookups | row-set invariants |
| C56 | verification of gateway blocks | exact acceptance condition; C17 and C52 combined |
| C57, C60, C61 | transaction hashes of all kinds and versions, contract addresses, message hashes; hash functions are parameters | exact formula, then injectivity over calls without collision; byte codec for messages |
| C58, C59, C62 | the download task, its block cache, the channel, the supervisor and the storing task as one transition system with an arbitrary gateway | invariant over all actions (the announced chain is linked and the cache agrees with it); measure for convergence; origin of every stored header |
| C63 | the search for an L2 gas limit over an arbitrary execution function with state | loop invariant (below starves, above runs), measure, arithmetic |
| C64 | calls, cache entries and channels of the trace cache as a transition system | invariant over all interleavings |
| C65 | the state diffs of pending transactions, their merging and conversion, the choice of pending data by number, the three reading methods over the stored chain of C18 | refinement: stored blocks and pending transactions are layers of writes, the last write counts |
| C66 | the transaction and transaction-hash tables, pending transactions and receipts, the five looking-up methods | invariant: the tables are those of the stored blocks, by induction over changes; lookups are sound and complete for stored and pending blocks |
| C67 | the polling loop, its state, the event queue and the consumer's handling of pending data; everything else changes the latest block at any time | invariant: the keys of what is shown, queued and last emitted increase strictly |
| C68 | parsing of requests, dispatch, concurrent execution of batches as a transition system, HTTP bodies and the websocket loop | invariant: waiting, running and sent requests are those of the batch; a sorted permutation is unique |
| C69 | the message loop with its lock per message, the steps of each request, the two tasks of each subscription and their common map of subscriptions, as a transition system | invariant over all interleavings: who holds which id, what is in the map, how many notifications a task may still owe |
| C70 | the L1 node and the client as one transition system: chain, finalized block, events under way, polled numbers, pending updates by L1 block | invariant that replaying the events under way on what the client was told gives the chain, and that pending updates lie after all reported ones |
| C71 | the table of headers with its two unique keys, gap search, pipeline stages as functions on what is received, checkpoint analysis and rollback; one action per database transaction | invariant: stored headers up to the anchor are on the chain; above it, a header of the chain has its parent stored, and a hole has nothing below it |
| C72 | each task an automaton over send, receive, ask and store; channels as sequences with a read position; a run is any interleaving; hashes and commitments are arbitrary functions | invariant: each task's reads and writes in its current round; every item on a channel is what its position demands. Absence of deadlock by well-founded induction on round and task; bound by a potential |
| C73 | tables as rows with block numbers, trees as what they hold (C08-C11), the committed database apart from the transaction's; the three callers; states as functions from addresses, with the commitment defined on them | invariant: the rows show the state at every block from the parent on; merging updates is applying them in turn; injectivity of the nested commitment |
| C74 | the method with its limits, block lookup and three kinds of proofs; the leaf tables (`contract_state_hashes`, `casm_class_hashes`, `class_commitment_leaves`, storage rows) added to the database of C73; the client as `verify` of C13 on a choice of nodes | invariant: the leaf tables show the state at every block, and rows of later blocks do not change what is read for earlier ones; soundness from C13 and the injectivity of the commitment |
| C75 | the task as a machine with one step per await point, the consumer (commit, then announce) and the node's pending data, tracker and L1 state as other steps; executions are lists of steps in any order | invariants over all executions: sent messages against the sender's last status; queue elements were in the chain since the last reported reorg; an obligation that a stored transaction is in the queue, announced next, or said |
| C76 | the server's loop over blocks with a database that may fail; the client's loops over peers and over blocks, with one handler of items for each kind of data (grouping of events, accumulation of state diffs); honest peers are servers on a part of the chain whose answers may be cut off | induction over the remaining blocks of an answer and over the answers; the handlers fold the items of a block to its data; for any peers an invariant on the numbers of items |
| C77 | the DTOs of all blob versions with their bincode encodings (variable-length integers, felts without leading zeros), the conversions to and from the common types, and the two tables with their keys | each encoding is read back with any bytes behind it (combinators, then each type); conversions invert on values of the types; the tables are the image of a list of blocks, by induction over the history |
| C78 | the two parsed definitions, the preparation of a Cairo 0 class, the JSON writer byte by byte, and the two hashes over arbitrary hash functions | the writer is injective on JSON values (strings decode, numbers end, lists are delimited), so that the document tells the definition; the two string replacements are one pass with pending spaces; then chains bind as in C17 |
| C79 | the DTOs and protobuf messages of headers, transactions, receipts and events as records over their leaves, the conversions both ways field by field, and the stage that computes addresses and hashes again | leaves round-trip by the big-endian lemmas of C01; then case by case over the kinds, and by induction over the block; range lemmas for whatever bytes are read |
| C80 | the point types with their flag and all operations on the Montgomery limbs of C04, the chunked table loop, `pedersen_hash`; the tables themselves are parameters with the premise that they hold the multiples | the group law over an abstract field by way of slopes; no root of x^3+x+b modulo the prime by computing a power of x modulo that cubic; the order of the generator by a checked addition chain and primality of the order; the code's formulas by ring identities; loops by induction over bits and chunks |
| C81 | the functions of ecdsa.rs on the felts of C01, the Montgomery elements of C04 and the points of C80; the random numbers are a list; panics of `unwrap` are outcomes | each answer is characterised by integers and points alone (`valid`, `in_bounds`, `key_pair`), the arithmetic by C04, C05 and the points by C80; that signatures verify by computing in the group of order `curve_order` |
| C82 | the rounds with the table of consts.rs, on the Montgomery elements of C04; the specification is the permutation on integers modulo the field prime with the round keys of poseidon3.txt, and the padding of C06 | a partial round commutes with adding a constant to its input (the linear part moves it to the output), by induction over the rounds; the 107 constants are compared by computation with those this gives; the inverse from the inverse of the matrix and cubing being invertible (Fermat) |
| C83 | the set of peers with its retention, the choice of whom to evict, the four handlers and the events, as functions that may panic, and runs of libp2p's calls of them with the connections that are open; the SHA3 of the secret with a peer or a network and the resolving of names are parameters; one reading of the clock per call; the queue of connections to close is not modelled, libp2p closes them when it does; inner behaviours accept or deny; the `expect`s of an eviction are checked at its start | an invariant over all runs (no peer twice, connected ones have a network group, recorded counts within the limits), kept by each call; the choice by lemmas on stable sorting, prefixes and what is removed; counterexamples for what is false |
| C84 | the state reader over the database and the sync events of C18-C55, and the cache; an execution has a snapshot of the database and looks up, and stores to the cache later; the class hash stands for its definition, and parsing a definition does not fail; not modelled: cairo-native, the decided blocks of `storage_adapter/concurrent.rs` (C85), compiled class hashes | an invariant over all interleavings: each cache entry and each pending one has the height of the first block that declared the class on the chain of some time; without reorgs chains only grow, so all these agree |
| C85 | the map of decided blocks, the four look-ups in it by block id, and the fall back to the database of C18; deciding, committing and forgetting a block as steps for the race; not modelled: compiled class hashes, look-ups of classes without a block, the channel to the database thread | the look-up finds the highest block with a hit; the state of a chain is the last write; blocks in neither part do not exist if the parts meet. For nonces and class hashes the same if the last change of the contract sets them, else the database answers; an invariant over the steps of consensus and sync: every known block is stored or decided |

## Trusted base

* Coq 8.16.1's kernel; `coqchk` re-checks every file.
* `Print Assumptions` stands beneath every theorem.  For each of the theorems
  named in `MANIFEST.json` it answers **"Closed under the global context"**: no
  axiom is used, not even one of the standard library.
* The transcription from Rust to Gallina.  Every definition cites the lines it
  models.
* The documented behaviour of what is outside `/repo`, where a model relies on
  it: the standard library (`BinaryHeap`, `HashMap`, `str::parse`), bincode,
  bitvec, SQLite (transactions are atomic, `ORDER BY`, `UNIQUE`, `ON CONFLICT`),
  num-bigint's decimal parser.

Nothing is assumed of hash functions: Pedersen, Poseidon, Keccak and SipHash are
universally quantified functions except where they are the subject (C80, C82).  Binding theorems (C10, C13, C17, C27, C52,
C56) take as hypothesis that a *listed, finite* set of hash computations, namely
those of the two objects compared, has no collision and no zero value.

## What is modelled, and what is not

| files | code modelled | not modelled |
|---|---|---|
| Felt* | `crypto/src/algebra/field/felt.rs`: bytes, hex, decimal, bits, integers | `Display` padding options, serde |
| Mont*, NumTheory | `crypto/src/algebra/field/{core,montfelt,curveorder}`: all arithmetic of both fields, conversions, powers, inverse, square root | the digit loop of `MontFelt::from_hex`, `random` |
| Hash* | `crypto/src/hash/poseidon/hash.rs`, `hash_chain.rs`: sponge and chain over an abstract permutation | the permutation (see Poseidon*), Pedersen's curve arithmetic (see Curve*) |
| Version* | `common/src/lib.rs`: `StarknetVersion`, `TransactionVersion` | |
| StateUpdate* | `common/src/state_update.rs`: merging, lengths, state diff commitment | serde |
| Merkle*, Trie* | `merkle-tree/src/*`: set, get, delete, commit, proofs; `storage/src/connection/trie.rs`: node tables, removal markers, roots, pruning, coalescing; `starknet_state.rs`, `revert.rs`, the trie part of `l2_reorg` and `purge_block` | database errors; parallel computation of contract updates (their order does not matter to the tables modelled) |
| Codec* | `storage/src/connection/trie.rs`: `StoredNode` and removal lists as bytes | bincode and bitvec themselves |
| Chain*, Reverse*, ReadBack* | `storage/src/connection/{state_update,block,pruning,class,ethereum,reference}.rs`; the sync consumer of `pathfinder/src/state/sync.rs` (new blocks, reorgs, L1 updates, duplicates, failures, finalized blocks); `merkle-tree/src/contract_state.rs` reverse updates; `rpc` state update reads | class bodies; signatures; what the tables of transactions hold besides events |
| Producer* | `pathfinder/src/state/sync/l2.rs`: `sync`, `bulk_sync`, `download_block`, `reorg`, `BlockChain`; the supervisor in `state/sync.rs` | `consensus_sync`; the polling of pending data; the bound of the channel; class bodies; block signatures (a mismatch is only logged) |
| TxHash* | `common/src/transaction.rs`: hashes, verification, contract addresses, message hashes; `ContractAddress::deployed_contract_address` in `common/src/lib.rs` | the hash functions; serde |
| Commit*, BlockHash* | `block-commitments/src/lib.rs`, `merkle-tree/src/transaction.rs` | class commitment helper of p2p sync; logging |
| Bloom*, Event* | `storage/src/bloom.rs`, `storage/src/connection/event.rs`: filters, aggregates, running filter, cache, event scan, reorg, restart, crash | compression; blocks without stored events (checkpoint sync) |
| GetEvents* | `rpc/src/method/get_events.rs`, `rpc/src/pending.rs`: paging, pending data, tokens as text | JSON |
| Subscribe* | `rpc/src/jsonrpc/router/subscription.rs`, `subscribe_new_heads.rs`, `subscribe_events.rs` as a transition system with the committing consumer | reorg notifications; other subscriptions |
| P2PStream* | `p2p/src/consensus.rs`, `consensus/stream.rs`, `height_and_round.rs` | libp2p; protobuf |
| Proposal* | `pathfinder/src/consensus/inner/{proposal_validator,batch_execution,p2p_task}.rs`, `validator/src/lib.rs`, `executor/src/concurrent_block.rs` | blockifier (a parameter); gossip; peer scores; our own proposals |
| Validator*, Timeout*, Wal*, Engine* | `consensus/src/{lib,internal,wal,config}.rs`, `internal/malachite.rs`, `fetch_proposers.rs` | Malachite's state machine (any sequence of its effects is allowed); I/O errors other than torn writes |
| GasPrice* | `gas-price/src/{l1,l2}.rs` | the floating-point deviation check, the oracle's network side |
| Estimate* | `executor/src/transaction.rs`: `find_l2_gas_limit_and_execute_transaction`, `simulate_transaction`, `execute_transaction`, `get_max_l2_gas_amount_covered_by_balance`; `util/src/percentage.rs` | blockifier (a parameter: any function of limit and state); resource bound accessors; `l2_gas_accounting_enabled`; the sums of the fee estimate |
| TraceCache* | `executor/src/simulate.rs`: the cache in `trace` | the execution itself (ends with any result); the order in which `SizedCache` drops entries (any entry at any time) |
| RpcRead* | `rpc/src/method/{get_nonce,get_storage_at,get_class_hash_at}.rs`; the state part of `rpc/src/pending.rs` (`try_from_pre_confirmed_and_pre_latest`, `empty`, `PendingWatcher::get`); `gateway-types/src/reply.rs`: `StateDiff::extend`, `deduplicate`, the conversion of state updates | JSON; versions other than by the flag whether pre-confirmed data are used; the channel of the pending data (any value may be there); transactions and receipts |
| TxLookup* | `storage/src/connection/transaction.rs`: `insert_transaction_data`, `transaction`, `transaction_with_receipt`, `transaction_at_block`, `transaction_count`; deletion of a header with its rows; the transaction part of `rpc/src/pending.rs`; `rpc/src/method/{get_transaction_by_hash,get_transaction_receipt,get_transaction_status,get_transaction_by_block_id_and_index,get_block_transaction_count}.rs` | JSON; the encoding and compression of rows; bodies of transactions and receipts are numbers; database errors; the submission tracker is a flag |
| PendingPoll* | `pathfinder/src/state/sync/pending.rs`: `poll_pre_confirmed`, `fetch_pre_latest`; `pathfinder/src/state/sync.rs`: the arm for `PreConfirmed` of the consumer | the bound of the channel; timing; restarts of the poller; state updates (see RpcRead*) |
| JsonRpc* | `rpc/src/jsonrpc/{request,response}.rs`; `rpc/src/jsonrpc/router.rs`: `run_request`, `run_concurrently`, `rpc_handler`; `router/method.rs`: `handle_json_rpc_body`; `router/subscription.rs`: `handle_json_rpc_socket`, `handle_request` | the JSON text itself (values and fields are given); headers and content types; the methods (their results are given); panics while a subscription is started |
| SubLife* | `rpc/src/jsonrpc/router/subscription.rs`: `Subscriptions`, `invoke` (what is spawned and when), `SubscriptionsGuard`, `handle_json_rpc_socket`, `handle_request`, `SubscriptionSender` | which items a subscription streams (see Subscribe*); the bound of the channels (sending may take any time); ids beyond 2^32 |
| L1Log* | `ethereum/src/lib.rs`: `sync_and_listen` (both arms of the select, losing and renewing the subscription), `get_starknet_state` | decoding of logs; logs of other contracts; what else the L1 client does; delays between reconnections |
| HeaderSync* | `pathfinder/src/sync/{headers,stream,checkpoint,track}.rs`: gap search, continuity and verification stages, chunking, checkpoint analysis, rollback, persisting and tracking of headers; `storage/src/connection/block.rs`: the queries used | all data other than headers; peers and requests (any data may arrive); buffering and cancellation of pipelines |
| Track* | `pathfinder/src/sync/track.rs`: all sources, fan-outs, the join and the storing of blocks; the stages of `transactions.rs`, `events.rs`, `state_updates.rs`, `class_definitions.rs` used there | the header source and its checks (HeaderSync*); retries of requests; the counting of the p2p client (a wrong count is a failed answer); channels between the stages of one source; stored signatures' validity; failures of the database |
| StateRoot* | `merkle-tree/src/{starknet_state,contract_state}.rs`, `common/src/lib.rs` state commitment and leaf hashes, the parts of `state/sync.rs` l2_update, `sync/track.rs` and `sync/state_updates.rs` that compute and check the commitment, the root, class and nonce rows | nodes of the trees (C08-C11), pruning, reverts (C20, C21), the tables `contract_state_hashes` and `class_commitment_leaves`, everything else l2_update stores |
| StorageProof* | `rpc/src/method/get_storage_proof.rs`, `get_proofs` of `merkle-tree/src/tree.rs` and the leaf lookups of its callers, the tables of leaves | nodes of the trees in the database (C08-C11), hence missing nodes; pruning except for the refusal; JSON; reverts |
| TxStatus* | `rpc/src/method/subscribe_transaction_status.rs` | the gateway's answers other than rejection, closed channels and errors (the task ends or goes on as from `Stop`); JSON; a tick that is slow; the read of the database is one moment, that of pending data and tracker another |
| Serve* | `pathfinder/src/p2p_network/sync/sync_handlers.rs`, `p2p/src/sync/client/peer_agnostic.rs` | libp2p and the channels (an answer is a list of responses); headers (`get_header` goes through the same `iterate`; the header stream is in HeaderSync*); conversion of transactions, receipts, classes and events (a function that may refuse); the choice of peers; the receiver of a stream being dropped |
| Blob* | `storage/src/connection/transaction.rs`, `schema/revision_0057.rs` (tables `transactions` and `transaction_hashes`), `common/src/receipt.rs` | zstd (a function that gives back what it compressed, within the limit); the encoding of Ethereum addresses by ethereum-types; SQL (a table is a list with a key); the event filters filled on insertion (in Event*); a panic in a conversion is an error here |
| ClassHash* | `class-hash/src/lib.rs`, entry points of `common/src/class_definition.rs` | serde_json's parser (definitions start parsed; which kind a text parses as is a parameter); serde_json's own string escapes are modelled from its documentation; `from_parts` (181-262), which puts definitions together and calls the same functions |
| Wire* | `p2p/src/sync/client/conv.rs` and `types.rs`, `p2p_proto/src/{common,transaction}.rs`, `p2p_proto/src/sync/{header,transaction,receipt,event}.rs`, `CalculateHashes` of `pathfinder/src/sync/transactions.rs` | prost's encoding of messages; messages that lack a field (refused by the derived readers); class definitions and state diffs (C76 has the latter) |
| Curve* | `crypto/src/algebra/curve/{affine,projective,gen_mul,params}.rs`, `crypto/src/hash/pedersen/hash.rs` and P0 of `gens.rs` | the digit loop of `from_hex` on literals; the entries of `G_CONSTS` and `CURVE_CONSTS_P1` to `P4` (premises `multiples` and `right_tables`; that the tables of the repository meet them was checked outside Coq by recomputing all 16785 entries) |
| Ecdsa* | `crypto/src/signature/ecdsa.rs`, `common/src/signature.rs` | `Display` of the error; the random number generator (a list of draws); `G_CONSTS` as for C80 |
| Poseidon* | `crypto/src/hash/poseidon/{permutation,consts,hash}.rs`, `crypto/spec/poseidon3.txt` (as the specification) | `examples/consts_poseidon.rs`, which made the table |
| Peers* | `p2p/src/core/behaviour.rs` (without `builder`, `poll` and Kademlia), `p2p/src/peers.rs` | SHA3, DNS, the swarm and the inner behaviours (relay, identify, Kademlia, ping) other than by what they call |
| ExecClass* | `executor/src/state_reader.rs` (storage, nonce, class hash, class), `executor/src/lru_cache.rs` | `state_reader/native.rs`, compiled class hashes, parsing of definitions |
| Decided* | `executor/src/state_reader/storage_adapter/concurrent.rs` (storage, nonce, class hash, class definition at a block) | `casm_*`, `class_definition_with_block_number`, `block_hash`, the channel |

Simplifications common to all: tables are lists of rows, maps are association
lists; machine integers are unbounded unless the comment says otherwise (where
overflow can happen in practice the model has an explicit panic: the workspace
builds with `overflow-checks = true`, Cargo.toml:162-163); log lines, metrics
and error texts are dropped.

## Findings

Statements one would expect to hold but which are false of the modelled code.
Each has a theorem with a witness.

**Merkle tree and tries**
* `C15_repeated_reorg_refuted`: after two reorgs in a row the reverse updates are
  computed from rows that ignore the first revert; a version in the window can
  then be unreadable.
* `C16_longer_path_refuted`: the path length is stored in one byte (harmless at
  height 251).

**Commitments and block hashes**
* `C17_zero_item_refuted`: item hashes of zero are invisible to a commitment.
* `C17_empty_signature_refuted`: between 0.13.2 and 0.13.4 an empty signature and
  a signature of one zero are hashed alike.
* `C52_sequencer_refuted`: on mainnet before 0.13.2 verification also tries a
  fixed sequencer address, so the sequencer of a verified header is not bound.
* `C57_declare_v0_refuted`, `C57_deploy_refuted`: the hash of a declare transaction of
  version 0 covers neither fee nor nonce; the one of a deploy transaction covers class
  and salt only through the address, which verification takes as given.
* `C57_invoke_v0_refuted`, `C57_l1_handler_refuted`: as the oldest formula is always tried
  too, a verified hash of an invoke v0 transaction does not bind its fee, and one of an L1
  handler neither its nonce nor that it is an L1 handler.
* By definition of the receipt hash the L2 gas of a receipt is not covered.

**Stored chain**
* `C20_casm_refuted`, `C20_casm_redeclared_refuted`: rows of compiled class hashes
  survive the purge of their block and are visible again later.
* `C21_system_leaf_refuted`: a system contract whose storage became empty keeps a
  leaf going forward, but reverting to the same block removes it.
* `C21_class_removal_refuted`, `C21_class_order_refuted`: reverse updates of Sierra
  classes can use orphaned or outdated compiled class hashes.
* `C22_lowest_refuted`: the state update of the lowest block left by pruning is
  stored but cannot be read; storage panics.
* `C22_declared_refuted`, `C22_migrated_refuted`: declared classes do not read back
  as stored.
* `C23_pruned_refuted`: the L1 pointer may point at a pruned block.
* `C24_finalized_duplicate_refuted`, `C24_finalized_gap_refuted`: blocks finalized
  by consensus are not counted by the consumer, so a duplicate download of them is
  an error or leaves a gap.

* `C58_early_restart_refuted`: when the download task ends it is restarted from the
  database although blocks may still be queued; if the gateway replaces one of these
  meanwhile, the stored chain is no longer linked.
* `C58_number_refuted`: tracking does not compare the number of the block served with
  the number requested.

**State updates**
* `C25_nonce_refuted`, `C25_storage_refuted`: merging a class replacement into an
  earlier deployment loses the deployment's nonce and storage in lookups.
* `C25_migrated_refuted`: merging drops migrated classes of the later update.
* `C26_data_length_refuted`: `StateUpdateData`'s length ignores migrated classes.

**Events**
* `C30_more_than_16_groups_refuted`: more than 16 key groups lose events in storage
  (the RPC layer rejects such requests).
* `C31_paging_with_pruning_refuted`: with blockchain pruning a continuation token is
  moved to the earliest block: events are repeated.
* `C32_crash_after_reorg_refuted`, `C32_reorg_of_genesis_refuted`,
  `C32_rolled_back_insert_refuted`, `C32_stale_snapshot_refuted`: four ways in which the
  running event filter stops covering the chain, so that queries miss events.
* `C33_*_refuted`: ranges that name a pending block by number, or lie after the
  pending blocks, give events outside the range or none; page size 0 never ends.
* `C35_*_refuted`: a subscription can receive a block twice, late, or (with pruning
  or pre-confirmed data) miss it.

**Consensus**
* `C37_part_attribution_refuted`, `C37_no_panic_when_sending_refuted`: buffered parts
  are attributed to the wrong peer; a message for a stream we send on panics.
* `C40_refused_after_completion_refuted`, `C41_*_refuted`, `C42_*_refuted`: batches
  after the commitment are accepted; some deferred proposals are never executed; a
  peer can end the task with a fatal error; rollback keeps declared classes.
* `C43_*_refuted`, `C44_*_refuted`: a torn write makes recovery of a log fail as a
  whole; an address with a dash is misread; a height can be started again after its
  decision.
* `C46_node_selector_rotates_refuted`: the selector the node runs with ignores the
  round.

**Gas prices and versions**
* `C47_zero_limit_refuted`, `C48_*_refuted`, `C49_*_refuted`: a limit of zero keeps one
  sample; saturation and overflow; usage above twice the target moves the price by
  more than 1/48th; prices below 333 never recover.
* `C50_packed_order_refuted`: the packed version integer does not order versions.
* `C51_total_refuted`: the query flag of p - 1 panics.

**Execution**
* `C63_balance_refuted`: when fees are charged and the balance covers what a transaction
  consumes but not the ten per cent added to it, there is no estimate, although the
  transaction runs within the balance.
* `C64_stuck_refuted`: a tracing call that ends without a result but leaves its entry
  behind (reading the initial reads fails, a panic) makes every later call for that block
  fail, until the entry happens to be dropped.
* `C64_error_remembered_refuted`: an execution error is kept like a trace and repeated to
  later calls, also when its cause was temporary (a failed database read).

**Reading pending state**
* `C65_replaced_refuted`: a contract that a pending transaction deploys and a later pending
  one gives another class is CONTRACT_NOT_FOUND for `getNonce` and `getStorageAt`, though
  `getClassHashAt` knows it: the later class update overwrites the mark of the deployment.
* `C65_last_update_refuted`: a slot written by the pre-latest block is reported as last
  updated in the pre-confirmed block.
* `C65_other_parent_refuted`: pending data are matched with the latest block by number only;
  after a reorg to another block of the same number the pending state of the old one is served.
* `C65_migrated_refuted`: merging the state diffs of pending transactions drops migrated
  class hashes.

**Looking up transactions (C66).**

* `C66_no_receipt_refuted`: a pre-latest block in which a transaction has no receipt makes
  `starknet_getTransactionReceipt` (and the status method) panic on `expect`; unlike the
  pre-confirmed block the pre-latest block is not checked for it.
* `C66_candidate_refuted`: a transaction that is stored, and accepted on L1, has status CANDIDATE
  while it is among the candidates of the pre-confirmed block; its receipt says it is accepted.

**Polling pending data (C67).**

* `C67_executed_refuted`: updates are told apart by the number of transactions, candidates
  included; a candidate that gets executed is still shown as a candidate until another
  transaction arrives or the block is complete.
* `C67_too_early_refuted`: data polled before their parent is stored are dropped by the consumer,
  and the poller, which remembers them as emitted, does not emit them again.
* `C67_reorg_refuted`: after a reorg to a lower block no pending data of the new chain are shown
  until it is longer than the old one.

**JSON-RPC over websockets (C68).**

* `C68_empty_batch_refuted`: an empty batch (`[]`) over a websocket is answered with an error, and
  then run nevertheless; the channel for its results has capacity 0, which panics, and the
  connection answers nothing any more. Over HTTP empty batches are refused properly.
* `C68_disabled_refuted`: the option that disables batches is not looked at for websockets.

**Subscriptions over a websocket (C69).**

* `C69_late_refuted`: an item may be sent after the answer that its subscription has ended, because the
  task looks the subscription up before it sends. One item at most (`C69_ended`).
* `C69_error_lost_refuted`: if the stream of a subscription fails, the error is sent only if its task has
  not ended yet, which it does because the stream has ended. The client may then never hear that the
  subscription is gone. (A subscription that cannot keep up ends without any error in the first place.)

**Following L1 (C70).**

* `C70_stale_refuted`: pending updates are kept when the subscription is lost and renewed. Blocks replaced
  meanwhile are never reported as removed, so their states are later reported as finalized although the
  chain does not have them.
* `C70_missed_refuted`: the first state is that of the finalized block and the subscription only brings
  logs of new blocks. States logged by the blocks in between (about two epochs) are never reported.
  The same holds for what is logged while the subscription is lost.
* `C70_untimely_refuted`: if the finalized block is handled before a removal that was sent earlier, a state
  is reported that the finalized chain does not have.

**Header sync over p2p (C71).**

* `C71_stale_refuted`: if the local block at the number of a checkpoint has another hash, local blocks are
  rolled back from the checkpoint's number down to the anchor, not from the local head. The blocks of the
  fork above the checkpoint stay stored, the chain is broken there, and tracking continues from the head of
  the fork, where no block of the chain can be stored.
* `HeaderGap::tail_parent_hash` is never compared with anything. Under the assumption on L1 this is harmless
  (`C71_anchored`).

**Tracking over p2p (C72).**

* `C72_error_lost_refuted`: when a peer sends bad transactions, the error goes to the stream of transactions,
  and the stream of their hashes is closed. The source of events then ends, the join sees the end of events
  before the error, and tracking ends with `Ok`. The peer is not punished, and tracking starts anew and may ask
  it again.
* `C72_receipts_refuted`: receipts are never compared with the header's receipt commitment. A peer can have any
  fee, status, messages and resources stored.
* `C72_casm_refuted`: the compiled class stored for a Sierra class is never compared with the compiled class hash
  it is declared with.
* Event counts and commitments are stated for blocks in which no transaction hash is repeated; `remove` on the map
  of events would give all events to the first of two equal ones.

**State commitment (C73).**

* `C73_migrated_refuted`: merging the updates of a checkpoint batch drops the migrated compiled classes, so the class
  commitment computed for a batch with a migration is wrong. The batch is refused (`StateRootMismatch`) although
  every block in it is right; the blocks one at a time are accepted. Checkpoint sync cannot get past such a block.
* A batch in which a contract is written to before the block that deploys it is accepted, while the blocks one by one
  are not; this is what `acceptable` says of batches.

**Storage proofs (C74).**

* `C74_mid_batch_refuted`: after checkpoint sync, a block inside a batch has no roots of its own (they are stored for the
  last block of a batch only). A proof for such a block is not refused: it is made from the roots of the batch before,
  and shows contracts deployed in the batch so far as absent. A client that compares the roots with the header's state
  commitment notices; one that does not is misled.
* `C74_pruned_refuted`: a node that prunes its trees takes a missing class root for a pruned one, so as long as no class
  is declared it refuses every proof, also of its newest block (`StorageProofNotSupported`).
* `C74_leaves_refuted`: with no contract at all, `contract_leaves_data` is empty instead of one entry per contract asked.
* `C74_class_absence_refuted`: before 0.14.0 a commitment does not say whether it is the hash of two roots or a
  contracts' root alone; the commitment passes for a contracts' root next to a zero classes' root. Absence of
  a class is proved only if the classes' root is not zero (or the block is newer), as `C74_sound` says. This is the
  protocol, not the node.

**Transaction status subscriptions (C75).**

* `C75_gap_refuted`: the task reads the database, then the pending data, and subscribes to new blocks only after that. A
  block that is committed and announced in between is in neither: the client is never told that its transaction was
  accepted, on L2 or on L1, however many blocks follow.
* `C75_reorg_lost_refuted`: likewise for a reorg in that gap: the client is left with `ACCEPTED_ON_L2` for a transaction
  in no block.
* `C75_l1_refuted`: with each new block the task compares the L1 state with the block of the *last status sent*, also
  if that is a pre-confirmation. A transaction that was pre-confirmed in block n and left out of it is reported as
  `ACCEPTED_ON_L1` as soon as L1 reaches n (after a stall of the subscription or fast L1), though it never was in a block.

**Serving and fetching blocks over p2p (C76).**

* `C76_migrated_stuck_refuted`, `C76_migrated_wrong_refuted`: `state_diff_length` counts migrated classes (and the header
  commits to it) but `get_state_diff` does not send them and no message has room for them. The diff of a block with
  migrated classes is never complete: as the last block of a range it is never given, whatever honest peers answer
  (`C76_migrated_stuck` says so of every such block; `state_diff_for_block` fails on it); otherwise the first items of the
  next block are taken for its own, and honest peers appear to send wrong diffs.
* `C76_event_panic_refuted`: `event_stream` keeps the hash of the last transaction when a block is complete but starts a new
  list of transactions. A peer that sends events with one transaction hash on both sides of the end of a block makes
  `.last_mut().expect("not empty")` panic.
* `C76_short_diff_refuted`: an entry sent twice is counted twice, so a diff shorter than the header says is given. (It is
  checked against the commitment afterwards.)

**Stored transactions (C77).**

* `C77_total_gas_refuted`: `From<ExecutionResourcesV1> for ExecutionResourcesV2` (transaction.rs:873-884) sets
  `total_gas_consumed` to the default. The total gas of receipts in blobs of version 2, which was stored, reads as zero.
* `C77_no_events_refuted` (`C77_no_events` says so of every such block): a block inserted without events, as checkpoint sync does
  before it has them, has no data according to `transaction_data_for_block` (the zip with no events is empty), while
  `events_for_block` and `transaction_with_receipt` fail.
* `C77_too_large_refuted` (`C77_too_large`): nothing limits the size of a block on insertion; one of more than 128 MiB before
  compression is stored and can then never be read.
* Not theorems: a deploy transaction of a version above 1 in a blob of version 0 makes reading the block panic; gas with only one
  of its two numbers reads as none.

**Class hashes (C78).**

* `C78_python_refuted` (`C78_escapes` gives all such characters): `PythonDefaultFormatter::write_string_fragment` (lib.rs:715) formats
  with `{i:4x}`, which fills up with spaces: a character from U+0080 to U+0FFF, such as an accented letter, is written as
  `\u  e9` where Python writes `\u00e9`. DEL (U+007F) is written as it is, while Python escapes it. A Cairo 0 class with such a
  character in its ABI, identifiers or hints gets another hash than the reference gives it. It cannot be confused with another
  class, for the writing is still injective (`C78_writing_binds`).

**Blocks on the wire (C79).**

* `C79_ancient_refuted`: `CalculateHashes` (pathfinder/src/sync/transactions.rs:88) compares with `calculate_hash` only, where the node's own
  check `verify_hash` also knows the hashes used in the first blocks of mainnet. A correct deploy, invoke V0 or L1 handler transaction of
  that time is refused with `BadTransactionHash`, and the peer that sent it is blamed.
* `C79_receipts_refuted`: of a receipt, `segment_arena`, the total data gas and an L1 address past 160 bits do not arrive, and nothing tells
  the receiver (conv.rs:307-399 and 716-808).
* `C79_panic_refuted`: a stored receipt with a step or builtin counter from 2^32 makes the node that is asked for it panic
  (`try_into().unwrap()` in conv.rs:307-399).
* `C79_address_refuted`: the sender of an event and of a message to L1 are read as field elements and wrapped with `ContractAddress(..)`: one from
  2^251 is accepted from a peer.

**Points of the curve (C80).**

* `C80_convert_refuted`: both conversions between `AffinePoint` and `ProjectivePoint` set `infinity: false` (affine.rs:23, projective.rs:25): the neutral
  point becomes (0, 0), or keeps the coordinates of whatever it was computed from, which C81 shows to matter. For `pedersen_hash` this would
  concern only inputs whose sum is the neutral point, and none is known.

**Signatures (C81).**

* `C81_no_panic_refuted`: `ecdsa_verify_inner` converts z, r and s with `CurveOrderMontFelt::try_from(..).unwrap()` before it checks their bounds (ecdsa.rs:154-156),
  so that a felt from the curve order on panics instead of being refused. `BlockCommitmentSignature::verify` runs on headers and signatures sent by peers
  (pathfinder/src/sync/headers.rs:250), where it ends the stage's thread and with it the stream without blaming the peer, and on those of the gateway inside `rayon::spawn`
  (pathfinder/src/state/sync/l2.rs:316, 657), where a panic aborts the process. In C76 verification is a parameter that returns a verdict, so this case is outside what C76 says.
* `C81_sound_refuted`: if the two parts of the sum cancel, the neutral point is converted to coordinates (C80_convert_refuted) that are those of the first part,
  and the pair is accepted if these match r. The x coordinate of the generator is thus a signature of itself under itself. By `C81_sound_partial` this needs the secret to be z / r or - z / r,
  so it does not help to forge.
* `C81_sign_message_refuted`, `C81_sign_zero_refuted`: `ecdsa_sign_k` bounds the message by the curve order instead of 2^251, and does not check s, so that it returns signatures that do not verify.
* `C81_zero_key_refuted`: `get_pk` gives the secret 0 a public key; there is no such point.
* `C81_full_key_refuted`: `ecdsa_verify` compares the y coordinate with the one square root that `from_x` finds, so it refuses one of every two full keys as `PublicKey`. It has no user in the repository.
* `C81_one_signature_refuted`: (r, order - s) verifies whenever (r, s) does, if in bounds, so the signature stored with a block is not determined by the block and the key.

**Connections to peers (C83).**

* `C83_inbound_limit_refuted`: the direction recorded for a peer is not updated when it connects again (`behaviour.rs:228-237`), so a peer that was dialed before, even in vain, is not counted as inbound when it connects to us, and the limit on inbound peers is exceeded. Proved without such peers (`C83_inbound_limit_partial`).
* `C83_choice_refuted`: the eviction of inbound peers does the opposite of its comments. `sort_by_key(Reverse(connected_at))` (`behaviour.rs:643`) protects the half connected most recently, not for longest; the last sort (`behaviour.rs:656-673`) is ascending and its first is the oldest of the least populous group, not the youngest of the most populous. Whatever the secret, sixteen peers of an attacker, twelve of them in one network, get the one other peer evicted that was there before them all: the eclipse that the algorithm is to prevent.
* `C83_outbound_limit_refuted`: the limit on outbound peers is checked when dialing, and counts connected ones only: peers dialed in parallel all get in.
* `C83_wait_refuted`: the configured `eviction_timeout` ("How long to prevent evicted peers from reconnecting") is used only for how long disconnected peers are remembered; they are kept out for a fixed 30 seconds (`C83_wait_partial`).
* `C83_wait_closing_refuted`: an evicted peer whose connection is still being closed may connect again at once.
* `C83_no_panic_refuted`: flagging an unknown peer as not useful panics (`peers.rs:108`), and so does the closing of the last connection of an evicted peer, if it was dialed in vain meanwhile and the closing takes longer than the eviction timeout.

**Classes given to executions (C84).**

* `C84_only_declared_refuted`: `GLOBAL_CACHE` (`executor/src/lru_cache.rs:8`) keeps the height at which a class was declared, and reorgs do not clear or correct it. If a class was declared in block h, looked up, and after a reorg is declared only later or never, executions on top of any block from h on are still given it, until 128 other classes were used: they see a class as declared that is not. With reorgs, what holds is `C84_once_partial` and `C84_found`; without, `C84_only_declared_partial`.

**Reads over decided blocks (C85).**

* `C85_nonce_refuted`, `C85_class_hash_refuted`: `find_contract_update` (`storage_adapter/concurrent.rs:463-468`) stops at the newest decided block that changes the contract at all. If that block does not change the nonce, or the class, the answer is taken from the database, although an older decided block did. With two decided blocks that are not committed, a proposal is executed with an old nonce of an account that the first used and the second only paid to, and a contract deployed in the first and written to in the second is read as not deployed. With one such block they are right (`C85_one_ahead`). `C85_stale` says that exactly this happens in all cases not covered by the `_partial` theorems. Storage is right (`C85_storage`): there the search goes on.
* `C85_snapshot_refuted`: `db_thread` keeps one read transaction for the whole execution, but `decided_blocks` is the shared live map. If the block below is committed and `remove_decided_block` runs during the execution, the block is in neither, and reads fall back to the state before it.

**Poseidon (C82).**

* No finding. The hypothesis of C06 that there is a permutation is discharged by C82: `C82_hash_many` is C06 with the code's own permutation and numbers instead of a parameter.

Noticed while reading, without a theorem: the conversion of the point at infinity
from projective to affine coordinates drops its flag; `ecdsa_verify` unwraps and so
panics for z, r or s not below the order; the RPC rate limiter panics with an empty
buffer; the new-block notification is sent even if the commit failed; node rows leak
on a reorg to genesis; hexadecimal "0x" is accepted as zero.

## Mutation tests

`seeded/LOG.jsonl` has one line per wrong program tried: the definition edited, the
edit, the claim it breaks, and the theorems that failed to build (or were tightened
because they did not).
