{"id": "C01", "title": "Merkle root after single insertions is the root of the inserted leaves", "statement": "After any sequence of successful one-at-a-time pushes into an initially empty full Merkle tree of any height >= 2, the reported root is exactly the hash of the binary tree whose leaves are the pushed digests in order, with absent leaves taken as the default leaf digest and wholly empty subtrees taken as the default inner digest; the reported length is the number of pushed leaves.", "quantifier": "every tree height >= 2, every leaf sequence up to capacity, every hash (join functions and default digests)", "why_tests_cant": "The number of histories is unbounded in height and length; tests pick a few heights (usually 20 or 7) and a few leaves.", "anchors": ["manta-crypto/src/merkle_tree/inner_tree.rs: InnerTree::insert, insert_and_join, compute_root, map_index", "manta-crypto/src/merkle_tree/full.rs: Full::push_leaf_digest, maybe_push_digest", "manta-crypto/src/merkle_tree/node.rs: Parity::join, Node::sibling"]}
{"id": "C02", "title": "Batch insertion is equivalent to inserting one at a time", "statement": "Pushing a list of leaves with the batch interface into a full tree that already holds any number of leaves leaves the tree with the same length, root and membership proofs as pushing the same leaves one by one.", "quantifier": "every height, every previous content, every batch (any length that fits)", "why_tests_cant": "Correctness depends on the parity of the start and end of the batch at every level of the tree; the number of parity patterns grows with the height.", "anchors": ["manta-crypto/src/merkle_tree/inner_tree.rs: InnerTree::insert_range_and_join, compute_root_from_leaves, batch_insert", "manta-crypto/src/merkle_tree/node.rs: NodeRange::join_leaves, dual_parity, parents", "manta-crypto/src/merkle_tree/full.rs: batch_push_leaf_digests, batch_maybe_push_digest"]}
{"id": "C03", "title": "Every membership proof issued by a tree verifies against its root", "statement": "For a full tree produced by pushes, path(i) for every stored index i verifies leaf i against the current root, the path has exactly height-2 inner digests and carries index i; path(i) for an index beyond the stored leaves is an error; and (soundness) if the hash functions are injective, a path of the right length carrying index i that verifies some leaf against the root verifies only the leaf really stored at i.", "quantifier": "every height, every push history, every index, every candidate path", "why_tests_cant": "Quantifies over all indices of all trees and over all adversarial candidate proofs.", "anchors": ["manta-crypto/src/merkle_tree/full.rs: WithProofs::path", "manta-crypto/src/merkle_tree/inner_tree.rs: InnerTree::path", "manta-crypto/src/merkle_tree/path.rs: Path::verify, InnerPath::fold, root", "manta-crypto/src/merkle_tree/tree.rs: Parameters::verify_path"]}
{"id": "C04", "title": "Single-path tree agrees with the full tree", "statement": "A single-path tree and a full tree of the same height fed the same push sequence always report the same length, the same root, the same current leaf and current path, and accept or refuse each push alike.", "quantifier": "every height >= 2, every push sequence including those exceeding capacity", "why_tests_cant": "The single-path structure keeps only O(height) digests, so any dropped digest only shows at a particular later length; every length must be considered.", "anchors": ["manta-crypto/src/merkle_tree/single_path.rs: SinglePath::maybe_push_digest, length_state, raw::insert", "manta-crypto/src/merkle_tree/path.rs: CurrentInnerPath::update, fold, CurrentPath::root, update"]}
{"id": "C05", "title": "Capacity is enforced exactly", "statement": "A full tree of height H accepts exactly 2^(H-1) leaves: a push is accepted iff fewer are stored, a refused push changes nothing observable, and the number of stored leaves never exceeds the capacity; batch pushes that do not fit report failure.", "quantifier": "every height, every push/batch history", "why_tests_cant": "Needs every history up to and beyond 2^(H-1) leaves.", "anchors": ["manta-crypto/src/merkle_tree/full.rs: maybe_push_digest, batch_maybe_push_digest", "manta-crypto/src/merkle_tree/tree.rs: capacity, Tree::extend_digests"]}
{"id": "C06", "title": "Pruning and proof removal never disturb what is kept", "statement": "In a partial tree, marking leaves as non-provable and pruning at arbitrary times never changes the root or the length, never changes the membership proof of any leaf that is still provable, and never changes the outcome of any later insertion (root and proofs afterwards equal those of a tree that was never pruned).", "quantifier": "every height, every interleaving of provable pushes, non-provable pushes, proof removals and prunes", "why_tests_cant": "A digest deleted too early is noticed only when some later leaf or later insertion needs it; all interleavings matter.", "anchors": ["manta-crypto/src/merkle_tree/partial.rs: Partial::prune, remove_path, remove_path_at_index, maybe_push_digest", "manta-crypto/src/merkle_tree/leaf_map.rs: LeafBTreeMap", "manta-crypto/src/merkle_tree/inner_tree.rs: PartialInnerTree::remove"]}
{"id": "C07", "title": "A forked tree tracks the tree it was forked from, and merging equals inserting directly", "statement": "After forking any tree and pushing leaves to the fork, the fork's root and length equal those of the base tree with the same leaves pushed directly; merging the fork leaves the base equal to direct insertion; resetting the fork leaves the base untouched and the fork equal to the base again.", "quantifier": "every height, every base content, every sequence of pushes, merges and resets", "why_tests_cant": "The fork is rebuilt from the base's current path; whether a digest is recoverable depends on the binary expansion of the base length.", "anchors": ["manta-crypto/src/merkle_tree/fork.rs: ForkedTree::merge_fork, reset_fork, Branch::new, generate_branch_setup", "manta-crypto/src/merkle_tree/inner_tree.rs: PartialInnerTree::from_current", "manta-crypto/src/merkle_tree/partial.rs: from_leaves_and_path_unchecked"]}
{"id": "C08", "title": "Rollback of an accumulator restores the last committed state", "statement": "For a Merkle forest of forked trees, performing any insertions and proof queries after a commit and then rolling back leaves every shard's length and root, and every later proof, the same as at the commit; committing makes the insertions permanent.", "quantifier": "every number of shards, every interleaving of inserts, rollbacks and commits", "why_tests_cant": "The wallet relies on it for every speculative transaction build; all interleavings matter.", "anchors": ["manta-crypto/src/merkle_tree/forest.rs: Rollback impl, insert, batch_insert, sort_items", "manta-crypto/src/merkle_tree/fork.rs: reset_fork, merge_fork_partial"]}
{"id": "C09", "title": "A shard insertion affects only that shard", "statement": "Inserting an item in a Merkle forest changes only the shard its key selects: all other shards keep their roots, lengths and proofs; an item proved with a shard's tree verifies against that shard's root; grouping a batch by shard keeps the relative order in each shard.", "quantifier": "every forest width, every item list", "why_tests_cant": "All shards and all batches must be covered.", "anchors": ["manta-crypto/src/merkle_tree/forest.rs: MerkleForest insert, batch_insert, sort_items, prove"]}
{"id": "C10", "title": "Coin selection is sound and complete", "statement": "Selecting coins for a request from the wallet's asset map returns, when the available coins of that id cover the request, a set of distinct stored non-zero coins of exactly the requested id whose total equals the request plus the returned change, using a single coin on an exact match or when some coin exceeds the request (then the smallest such coin); it returns an empty selection exactly when the request is zero or the coins do not cover it.", "quantifier": "every asset map, every requested asset", "why_tests_cant": "Ranges over all multisets of coins and requests; boundary equalities between running sums and requests are easily missed by samples.", "anchors": ["manta-accounting/src/asset.rs: AssetMap::select, impl_asset_map_for_maps_body", "manta-accounting/src/asset.rs: Selection"]}
{"id": "C11", "title": "Asset list keeps a sorted, zero-free, duplicate-free ledger of balances", "statement": "After any sequence of deposits, withdrawals and removals the asset list is strictly sorted by id and never stores a zero value; value(id) equals deposits minus withdrawals; a withdrawal succeeds iff the stored value is at least the requested value, and a refused withdrawal changes nothing; operations on one id never change another id.", "quantifier": "every operation sequence over all ids and values", "why_tests_cant": "State space of lists and operation orders is unbounded.", "anchors": ["manta-accounting/src/asset.rs: AssetList::deposit, withdraw, withdraw_unchecked, set_or_remove, remove, find"]}
{"id": "C12", "title": "Wallet balance bookkeeping", "statement": "For the map-based balance state: deposit adds exactly, withdraw succeeds iff the balance covers it and otherwise changes nothing, zero balances are not stored, and a failed withdraw_all leaves the balances as they were.", "quantifier": "every sequence of deposits, withdrawals and bulk withdrawals", "why_tests_cant": "Failure in the middle of a bulk operation depends on order and amounts.", "anchors": ["manta-accounting/src/wallet/balance.rs: BalanceState, impl for HashMap/BTreeMap, withdraw_all"]}
{"id": "C13", "title": "Normalising a sync result cancels deposits against withdrawals", "statement": "The signer's normalisation of deposits and withdrawals keeps the net change of every asset id unchanged, and afterwards no asset id appears both as a deposit and as a withdrawal.", "quantifier": "every pair of deposit and withdrawal lists", "why_tests_cant": "The in-place two-index loop has data-dependent skipping; samples with few equal pairs do not expose it.", "anchors": ["manta-accounting/src/wallet/signer/functions.rs: normalize_assets, sum_values"]}
{"id": "C14", "title": "Syncing keeps the wallet's assets equal to its unspent notes", "statement": "After any sequence of syncs, the signer's stored assets are exactly the received notes whose nullifier has not been reported, independent of how the ledger data is split into syncs; the deposits minus withdrawals reported to the wallet equal the change of the stored total per asset id.", "quantifier": "every ledger history and every split of it into sync batches", "why_tests_cant": "Order and batching of notes and nullifiers are unbounded.", "anchors": ["manta-accounting/src/wallet/signer/functions.rs: sync_with, insert_next_item, is_asset_unspent", "manta-accounting/src/wallet/signer/nullifier_map.rs"]}
{"id": "C15", "title": "A failed signing request does not change the signer", "statement": "If signing or consolidation returns an error, the signer's accumulator, assets and checkpoint are as before the call.", "quantifier": "every signer state and request, every point at which the build may fail", "why_tests_cant": "Failure can occur after any number of speculative insertions.", "anchors": ["manta-accounting/src/wallet/signer/functions.rs: sign, consolidate, sign_internal"]}
{"id": "C16", "title": "Batched joins conserve value and finish with exactly the number of final senders", "statement": "Combining n selected coins through rounds of 2-to-2 joins terminates, every join has equal input and output total, all coins but the padding are consumed exactly once, the process ends with exactly two senders whose total equals the total of the selected coins.", "quantifier": "every number and value of selected coins", "why_tests_cant": "Unbounded number of rounds; off-by-one in the pairing appears at particular residues.", "anchors": ["manta-accounting/src/wallet/signer/functions.rs: compute_batched_transactions, next_join, prepare_final_pre_senders, virtual_senders", "manta-util/src/iter/chunk_by.rs", "manta-accounting/src/transfer/batch.rs: Join::new"]}
{"id": "C17", "title": "Withdrawing to the public ledger pays exactly the requested amount", "statement": "Building to-public transactions for a request releases to the public sinks exactly the requested total, returns the exact remainder as private change, and spends each selected coin exactly once.", "quantifier": "every list of selected coins and every requested amount they cover", "why_tests_cant": "The amounts depend on running differences over all coins.", "anchors": ["manta-accounting/src/wallet/signer/functions.rs: compute_to_public_transaction, process_to_public_senders"]}
{"id": "C18", "title": "Consolidation requests are validated as documented", "statement": "ConsolidationRequest::new returns a request iff there are at least two assets, all of the same id, none of zero value and no entry repeated.", "quantifier": "every list of identified assets", "why_tests_cant": "The conditions are per-position; a missed position is only seen with the right list.", "anchors": ["manta-accounting/src/wallet/signer/mod.rs: ConsolidationRequest::new, check, select"]}
{"id": "C19", "title": "Sync pruning removes exactly the data already seen", "statement": "When a ledger reply starting at an origin checkpoint reaches a signer that is already further ahead, pruning removes exactly the notes and nullifiers the signer has already processed and keeps the others in order; it never panics and never drops unseen data.", "quantifier": "every origin checkpoint, signer checkpoint and data batch", "why_tests_cant": "Checkpoints are vectors; the interesting cases are incomparable vectors and partial batches.", "anchors": ["manta-pay/src/signer/base.rs: Checkpoint::prune", "manta-pay/src/config/utxo.rs: Checkpoint", "manta-accounting/src/wallet/signer/functions.rs: prune_sync_request"]}
{"id": "C20", "title": "Checkpoint after a sync equals the number of items processed", "statement": "After sync (and sbt_sync) the signer's checkpoint counts, for every shard and for nullifiers, exactly the ledger items it has processed, even when part of the reply had been seen before.", "quantifier": "every sequence of overlapping ledger replies", "why_tests_cant": "Overlap patterns are unbounded.", "anchors": ["manta-accounting/src/wallet/signer/functions.rs: sync, sbt_sync", "manta-accounting/src/wallet/signer/mod.rs: SyncRequest::utxo_count", "manta-pay/src/signer/base.rs: update_from_utxo_count, update_from_utxo_accumulator"]}
{"id": "C21", "title": "The estimated number of transactions is the number produced", "statement": "The estimate of transfer posts for a transaction equals the number of posts that signing the same transaction on the same state produces, and estimating never fails when signing would not.", "quantifier": "every signer state and transaction", "why_tests_cant": "Needs agreement for all coin selections.", "anchors": ["manta-accounting/src/wallet/signer/mod.rs: Signer::estimate_transferposts", "manta-accounting/src/wallet/signer/functions.rs: sign_after_selection_private_transfer, compute_to_public_transaction"]}
{"id": "C22", "title": "No note can be spent twice", "statement": "On the simulated ledger, in every history of pushed posts, two accepted spends never carry the same nullifier commitment, whether in one post, in one push or in different pushes.", "quantifier": "every history of posts, every adversarial choice of nullifier fields", "why_tests_cant": "Adversarial histories are unbounded and the set lookup depends on hashing details.", "anchors": ["manta-pay/src/simulation/ledger/mod.rs: is_unspent, spend, push", "manta-accounting/src/transfer/mod.rs: TransferPost::validate", "manta-accounting/src/transfer/utxo/protocol.rs: FullNullifier Eq/Hash", "manta-util/src/vec.rs: all_unequal"]}
{"id": "C23", "title": "Only posts with a valid proof are accepted", "statement": "A post whose zero-knowledge proof does not verify is rejected by the ledger and leaves it unchanged.", "quantifier": "every post, every verification outcome (error, false, true)", "why_tests_cant": "The unit tests only push proofs that verify or fail to decode.", "anchors": ["manta-pay/src/simulation/ledger/mod.rs: is_valid", "manta-accounting/src/transfer/mod.rs: TransferPost::validate"]}
{"id": "C24", "title": "Public balances move exactly as the post says; rejected posts change nothing", "statement": "Applying an accepted post debits each source and credits each sink by exactly the stated amounts of the stated asset, so the total public supply changes by sinks minus sources; a post that fails validation leaves every balance, note set and nullifier set unchanged; a source is never debited below zero.", "quantifier": "every ledger state and post", "why_tests_cant": "All balance configurations, including repeated accounts among sources and sinks.", "anchors": ["manta-pay/src/simulation/ledger/mod.rs: update_public_balances, check_source_accounts, check_sink_accounts, push", "manta-accounting/src/transfer/mod.rs: TransferPostingKey::post, check_public_participants"]}
{"id": "C25", "title": "Withdrawals credit the accounts the spender signed", "statement": "If a post with spends is accepted, the public accounts credited are the sink accounts covered by the spender's authorization signature.", "quantifier": "every post, every submitting account", "why_tests_cant": "Requires an adversarial submitter; honest tests submit from the signed account.", "anchors": ["manta-pay/src/simulation/ledger/mod.rs: push", "manta-accounting/src/transfer/mod.rs: has_valid_authorization_signature, check_public_participants, BodyWithAccounts"]}
{"id": "C26", "title": "Incremental pulls deliver every ledger item exactly once", "statement": "A reader that repeatedly pulls from the ledger, each time passing the checkpoint returned by the previous pull, receives, per shard and in order, every registered note and every nullifier exactly once, and learns whether more data remains.", "quantifier": "every interleaving of ledger pushes and pulls, every chunk limit", "why_tests_cant": "All interleavings of growth and reads.", "anchors": ["manta-pay/src/simulation/ledger/mod.rs: pull, pull_receivers, pull_senders", "manta-accounting/src/wallet/ledger.rs"]}
{"id": "C27", "title": "The initial read delivers the whole note set", "statement": "The initial-synchronisation read returns every registered note of every shard, in order, up to the requested limit, so that a wallet starting from it has a complete accumulator.", "quantifier": "every ledger state", "why_tests_cant": "Off-by-shard-number errors only appear with several populated shards.", "anchors": ["manta-pay/src/simulation/ledger/mod.rs: initial_read", "manta-accounting/src/wallet/mod.rs: initial_sync"]}
{"id": "C28", "title": "Every accepted output note becomes spendable", "statement": "If a post is accepted, each of its output notes is inserted in the ledger's note accumulator so that the owner can later prove membership.", "quantifier": "every ledger state including full shards", "why_tests_cant": "Requires filling a 2^19-leaf shard.", "anchors": ["manta-pay/src/simulation/ledger/mod.rs: register", "manta-crypto/src/merkle_tree/forest.rs"]}
{"id": "C29", "title": "Authorization signatures are required exactly for private spends", "statement": "A post is accepted only if: it carries a verifying signature when it has private senders, carries none when it has no private senders, its nullifiers are pairwise different, its outputs are pairwise different and unregistered, each spend refers to a known accumulator output, and the public parts are well-formed.", "quantifier": "every post and ledger state", "why_tests_cant": "Conjunction of all checks over all malformed posts.", "anchors": ["manta-accounting/src/transfer/mod.rs: TransferPost::validate, has_valid_authorization_signature, check_public_participants", "manta-accounting/src/transfer/sender.rs, receiver.rs"]}
{"id": "C30", "title": "Codec round trip for integers, arrays and sequences", "statement": "Decoding the encoding of any unsigned integer, boolean, array or vector of encodable values returns the value and exactly the unread remainder of the input; encodings of one type are prefix-free, hence unambiguous.", "quantifier": "every value, every trailing byte string", "why_tests_cant": "All values and lengths.", "anchors": ["manta-util/src/codec.rs: Encode, Decode impls"]}
{"id": "C31", "title": "Codec round trip for Option and Result", "statement": "Decoding the encoding of any Option or Result value returns the value.", "quantifier": "every value", "why_tests_cant": "No existing unit test covers these instances.", "anchors": ["manta-util/src/codec.rs: impl Encode for Option, Result; impl Decode for Option, Result"]}
{"id": "C32", "title": "Writers report what they did not write and fixed buffers accept multi-part encodings", "statement": "write() leaves in its input slice exactly the bytes not written; encoding a value of exact size N into an N-byte array and decoding from it round-trips, also when the encoding is written in several parts.", "quantifier": "every writer, every input, every multi-part value", "why_tests_cant": "All splits of the data into parts.", "anchors": ["manta-util/src/codec.rs: Write for Vec<u8>, [u8; N], EncodeExactSize::to_array, DecodeExactSize::from_array, Read for [u8; N]"]}
{"id": "C33", "title": "The byte encoding of a transfer post determines the post", "statement": "Two different transfer posts never have the same encoding.", "quantifier": "every pair of posts", "why_tests_cant": "Injectivity ranges over pairs.", "anchors": ["manta-accounting/src/transfer/mod.rs: Encode for TransferPost"]}
{"id": "C34", "title": "Note encryption round trip", "statement": "Decrypting with the right key and header what was encrypted returns the plaintext and a verifying tag, for every permutation and every number of blocks; any change of the ciphertext's block contents with the same tag is detected unless it collides in the permutation state.", "quantifier": "every permutation, key, header, plaintext block sequence", "why_tests_cant": "All permutations/keys/lengths.", "anchors": ["manta-crypto/src/permutation/duplex.rs", "manta-crypto/src/permutation/sponge.rs", "manta-pay/src/crypto/poseidon/encryption.rs"]}
{"id": "C35", "title": "Encrypted container header round trip and rejection", "statement": "Parsing a serialised container header returns the same configuration, salt, nonce and length; headers with a wrong magic, version, cipher, key-derivation or variant byte, or shorter than the fixed size, are rejected; wrap followed by unwrap returns the data for any authenticated cipher.", "quantifier": "every header and byte string", "why_tests_cant": "All byte strings.", "anchors": ["forks/cocoon/src/header.rs", "forks/cocoon/src/format.rs", "forks/cocoon/src/lib.rs: wrap, unwrap, decrypt_parsed", "forks/cocoon/src/mini.rs"]}
{"id": "C36", "title": "Encrypting never reuses a nonce", "statement": "Two encryptions made with one seeded container object, and in particular the successive blocks of one encrypted file, use different nonces under the same key.", "quantifier": "every sequence of encrypt calls", "why_tests_cant": "Unit tests encrypt once per object.", "anchors": ["forks/cocoon/src/mini.rs: MiniCocoon::encrypt", "forks/cocoon/src/lib.rs: Cocoon::encrypt", "manta-accounting/src/fs/mod.rs: cocoon::File"]}
{"id": "C37", "title": "Encrypted file save and load round trip", "statement": "Loading a saved value from an encrypted file returns the same value whatever its size relative to the block size.", "quantifier": "every serialisable value tree", "why_tests_cant": "All sizes and nestings.", "anchors": ["manta-accounting/src/fs/serde.rs: Serializer, Deserializer", "manta-accounting/src/fs/mod.rs: Block"]}
{"id": "C38", "title": "A rejected contribution leaves the ceremony unchanged", "statement": "If the server answers a contribution with an error because some circuit's state or proof is invalid, the ceremony state and challenges served to the next participant are those from before the request.", "quantifier": "every contribution over every number of circuits", "why_tests_cant": "Failure at any circuit position.", "anchors": ["manta-trusted-setup/src/groth16/ceremony/coordinator.rs: StateChallengeProof::update", "manta-trusted-setup/src/groth16/ceremony/server.rs: update"]}
{"id": "C39", "title": "Each participant contributes at most once", "statement": "In every execution with concurrent requests, the number of successfully applied contributions of a participant is at most one.", "quantifier": "every interleaving of concurrent query and update requests, clock ticks included", "why_tests_cant": "Schedules are unbounded; the race needs two in-flight requests.", "anchors": ["manta-trusted-setup/src/groth16/ceremony/server.rs: Server::update, query", "manta-trusted-setup/src/groth16/ceremony/coordinator.rs: LockQueue, preprocess_request"]}
{"id": "C40", "title": "A signed request is accepted at most once", "statement": "Within one run of the server each participant's accepted requests carry strictly increasing nonces, so no signed message is processed twice; a request with any other nonce is answered with the expected nonce and changes nothing.", "quantifier": "every schedule of requests, replays included", "why_tests_cant": "All replays in all orders.", "anchors": ["manta-trusted-setup/src/groth16/ceremony/coordinator.rs: preprocess_request", "manta-trusted-setup/src/ceremony/signature.rs: Nonce, SignedMessage::verify"]}
{"id": "C41", "title": "Contributions are applied only while the contributor holds the lock", "statement": "At the moment a contribution is applied to the ceremony state its sender holds the contribution lock, and finishing a contribution releases only the contributor's own lock.", "quantifier": "every interleaving of requests and clock", "why_tests_cant": "Timeout while a contribution is being verified depends on scheduling.", "anchors": ["manta-trusted-setup/src/groth16/ceremony/server.rs: Server::update", "manta-trusted-setup/src/groth16/ceremony/coordinator.rs: update_expired_lock, has_lock"]}
{"id": "C42", "title": "A crash at any point is recoverable", "statement": "If the server process stops at any point while handling a contribution, recover() restarts it with the state of the last completed round: either before or after the contribution, never a mixture, and never fails.", "quantifier": "every crash point between the individual file writes of a contribution, every number of circuits", "why_tests_cant": "All crash points.", "anchors": ["manta-trusted-setup/src/groth16/ceremony/coordinator.rs: StateChallengeProof::save, save_registry", "manta-trusted-setup/src/groth16/ceremony/server.rs: recover, update"]}
{"id": "C43", "title": "A waiting participant has one place in the queue", "statement": "In every execution a participant occurs at most once in the waiting queue, participants of the same priority are served in arrival order, and higher priorities are served first.", "quantifier": "every sequence of queries, timeouts and contributions", "why_tests_cant": "Depends on the order of timeouts and queries.", "anchors": ["manta-util/src/collections/vec_deque.rs: MultiVecDeque", "manta-trusted-setup/src/groth16/ceremony/server.rs: query", "manta-trusted-setup/src/groth16/ceremony/coordinator.rs: LockQueue"]}
{"id": "C44", "title": "The recorded contributions form a verifiable transcript", "statement": "The sequence of rounds saved by a server that handled only sequential requests, each accepted or rejected, verifies as a transcript from the initial state and challenge to the current ones.", "quantifier": "every sequence of contribution requests", "why_tests_cant": "Unbounded number of rounds with rejected requests in between.", "anchors": ["manta-trusted-setup/src/mpc.rs: Verify::verify_transform_all, Transcript::verify", "manta-trusted-setup/src/groth16/ceremony/coordinator.rs: StateChallengeProof::update", "manta-trusted-setup/src/groth16/mpc.rs: verify_transform"]}
{"id": "C45", "title": "Registry loading only adds participants", "statement": "Loading registration records into a live registry never alters an existing participant (key, nonce, contributed flag or priority) and reports exactly the number of new entries.", "quantifier": "every registry and record list, duplicates included", "why_tests_cant": "All record lists.", "anchors": ["manta-trusted-setup/src/ceremony/registry/mod.rs", "manta-trusted-setup/src/ceremony/registry/csv.rs: load_append_entries"]}
{"id": "C46", "title": "A client that follows the server's nonce replies converges", "statement": "A client whose nonce differs from the server's and which adopts the nonce of the error reply has its next request accepted, provided no other request with its key intervenes and the nonce is not exhausted.", "quantifier": "every pair of client and server nonces", "why_tests_cant": "All 2^64 nonces, including the exhausted one.", "anchors": ["manta-trusted-setup/src/groth16/ceremony/client.rs: contribute, update_nonce", "manta-trusted-setup/src/ceremony/signature.rs: Signer::set_valid_nonce, Nonce"]}
{"id": "C47", "title": "Decoding untrusted bytes never panics", "statement": "Decoding any byte sequence as any codec type returns a value or an error; it never panics.", "quantifier": "every byte sequence, every codec type", "why_tests_cant": "Inputs are arbitrary bytes; the failing ones have enormous length prefixes.", "anchors": ["manta-util/src/codec.rs: Decode for Vec<T>, Decode for integers, arrays, Option, Result"]}
{"id": "C48", "title": "The asset map is the set of inserted and not removed coins", "statement": "After any sequence of insertions and removals the asset map holds exactly the (key, asset) pairs inserted and not removed since, each once; remove reports whether the pair was present; the sortedness that binary search relies on is kept; assets() returns the totals per id.", "quantifier": "every sequence of insertions and removals", "why_tests_cant": "Unbounded operation sequences; removal of the last asset of a key, re-insertion and duplicates interact.", "anchors": ["manta-accounting/src/asset.rs: AssetMap, impl_asset_map_for_maps_body (insert, remove, asset_vector, assets)"]}
{"id": "C49", "title": "Reading the ledger never stops a wallet", "statement": "Whatever notes and nullifiers the ledger holds, a wallet opening them with its key finishes: data that does not decrypt or is malformed is skipped, and exactly the wallet's own well-formed notes and nullifiers are found.", "quantifier": "every reply of a ledger, every cipher, every key", "why_tests_cant": "Malformed plaintexts under a valid authentication tag have to be made on purpose.", "anchors": ["manta-pay/src/config/utxo.rs: IncomingAESConverter, OutgoingAESConverter", "manta-accounting/src/transfer/utxo/protocol.rs: NoteOpen::open, NullifierOpen::open", "manta-accounting/src/wallet/signer/functions.rs: sync_with"]}
{"id": "C50", "title": "Key and header are bound by the encryption setup", "statement": "Different pairs of key and header absorb different setup blocks, so a ciphertext made for one pair is not a ciphertext of another unless the permutation collides.", "quantifier": "every key and header of any length", "why_tests_cant": "All lengths and paddings.", "anchors": ["manta-pay/src/crypto/poseidon/encryption.rs: Setup::setup", "manta-util/src/vec.rs: padded_chunks_with"]}
{"id": "C51", "title": "Opening container bytes never stops the program", "statement": "Whatever bytes are handed to the container readers, they return a value or an error; no length field, which is read before anything is authenticated, makes them panic or abort.", "quantifier": "every byte string, password and memory size", "why_tests_cant": "All 64-bit length fields, including the last few before the overflow.", "anchors": ["forks/cocoon/src/lib.rs: Cocoon::unwrap, parse", "forks/cocoon/src/mini.rs: MiniCocoon::unwrap, parse"]}
{"id": "C52", "title": "A changed encrypted file does not load as something else", "statement": "A file that was changed by someone who does not know the password is not loaded as a value other than the one saved.", "quantifier": "every value, every rearrangement of the stored file", "why_tests_cant": "All permutations, replacements and truncations of stored blocks.", "anchors": ["manta-accounting/src/fs/mod.rs: cocoon::File, Block", "manta-accounting/src/fs/serde.rs: Deserializer", "forks/cocoon/src/mini.rs"]}
{"id": "C53", "title": "The wallet shows the unspent notes", "statement": "After every successful synchronisation the balances shown by the wallet are the sums of its notes that are unspent on the ledger at its checkpoint, also after errors, resets and restarts; a transaction that the balance check lets through is not refused by the signer for lack of funds; synchronising with an honest ledger does not panic.", "quantifier": "every ledger, every sequence of syncs, loads, resets, restarts and signatures", "why_tests_cant": "All orders of operations, including those where wallet and signer stand at different checkpoints.", "anchors": ["manta-accounting/src/wallet/mod.rs: Wallet::sync, sync_with, process_sync_response, restart, load_initial_state, check, sign", "manta-accounting/src/wallet/balance.rs: BTreeMapBalanceState"]}
{"id": "C54", "title": "What the signer signs is accepted", "statement": "The posts that the signer makes for a deposit, a transfer, a payment or a consolidation, pushed to the ledger that it is synchronised with, are all accepted; the ledger then has the nullifiers of the spent coins, the notes of the receivers, and the account's balance changed by exactly the amount of the request.", "quantifier": "every reachable ledger, every signer synchronised with it, every request that the signer answers", "why_tests_cant": "The roots of all shards, the joins and the order in which the posts change the shards are involved together; only runs over particular shards and coin sets are tested.", "anchors": ["manta-accounting/src/wallet/signer/functions.rs: sign, compute_batched_transactions, consolidate", "manta-accounting/src/transfer/mod.rs: TransferPost::validate, post, Transfer::into_post", "manta-pay/src/simulation/ledger/mod.rs: Ledger::push"]}
{"id": "C55", "title": "A request and its synchronisation conserve value", "statement": "After the posts of a request are pushed, the next synchronisation succeeds, and for every asset the private funds of the signer, the public balance of the account and what was given to others add up to what they were before; the signer is synchronised again, so that this holds for sessions of any length.", "quantifier": "every reachable ledger, every session of requests, pushes and synchronisations", "why_tests_cant": "Any number of requests of any kind in any order.", "anchors": ["manta-accounting/src/wallet/signer/functions.rs: sign, sync", "manta-accounting/src/wallet/mod.rs: Wallet::post", "manta-pay/src/simulation/ledger/mod.rs: Ledger::push, pull"]}
{"id": "C56", "title": "Extending a tree takes exactly what fits", "statement": "Extending a Merkle tree by an iterator of digests (extend, extend_digests, from_iter, from_slice) succeeds exactly when the digests fit, is then the same as pushing them one by one, and otherwise changes nothing.", "quantifier": "every height of at least 2, every reachable full, single-path and partial tree, every iterator", "why_tests_cant": "All sizes up to the capacity and all size hints; the tests use a few leaves in large trees.", "anchors": ["manta-crypto/src/merkle_tree/tree.rs: extend, extend_digests, from_iter, from_slice"]}
{"id": "C57", "title": "Trunks and forks behave as lists of leaves", "statement": "A fork that shares the tree of a trunk through a weak pointer has the leaves of the trunk followed by its own; pushes are taken exactly while it is attached and has room; merging appends its leaves to the trunk and detaches all other forks; a detached fork changes nothing until it is attached again; length, root and proofs agree with the lists of leaves.", "quantifier": "every program of trunk and fork operations, every height of at least 3", "why_tests_cant": "Any number of trunks and forks in any order of forking, pushing, attaching and merging.", "anchors": ["manta-crypto/src/merkle_tree/fork.rs: Trunk, Fork, Branch", "manta-util/src/pointer.rs: PointerFamily"]}
{"id": "C58", "title": "The validity constraints of a transfer say what they should", "statement": "An assignment that satisfies the constraints of a transfer has senders and receivers of one asset id, the public one if there is one; the senders are utxos of the key whose randomization signs, with that key's nullifiers, and those worth something are leaves of the tree whose root is published; the receivers' utxos hold what their published notes encrypt for their keys; and the values balance exactly as numbers below 2^128. Conversely the assignment that a wallet builds for a balanced transfer satisfies them.", "quantifier": "every assignment of the variables, every height, every field of at least 2^129 elements", "why_tests_cant": "The constraints range over field elements; wrap-around of sums and unconstrained variables show on chosen assignments only.", "anchors": ["manta-accounting/src/transfer/mod.rs: TransferVar::build_validity_constraints, input_sum, output_sum, value_sum", "manta-accounting/src/transfer/utxo/protocol.rs: SpendSecret::well_formed_asset, MintSecret::well_formed_asset, derive_spend, derive_mint", "manta-crypto/src/merkle_tree/path.rs: constraint", "manta-crypto/src/eclair/num.rs: UnsignedInteger"]}
{"id": "C59", "title": "The private pool does not inflate", "statement": "On a ledger, for every asset, what was ever paid out of the private pool plus what the unspent notes hold is what was ever paid in.", "quantifier": "every history of posts and balance settings, every number of shards", "why_tests_cant": "Involves all posts ever accepted, all their notes and all trees.", "anchors": ["manta-pay/src/simulation/ledger/mod.rs: Ledger::push, is_valid, is_unspent, has_matching_utxo_accumulator_output", "manta-accounting/src/transfer/mod.rs: TransferPost::validate, TransferPostingKey::post", "manta-accounting/src/transfer/utxo/protocol.rs: SpendSecret::well_formed_asset, MintSecret::well_formed_asset"]}
{"id": "C60", "title": "Identity proofs prove an identity and nothing else", "statement": "An identity proof that verifies for an address was signed with a key of that address; the proof that a wallet makes verifies for its own address; and no ledger accepts the post inside an identity proof.", "quantifier": "every post, virtual asset, address and account; every reachable ledger", "why_tests_cant": "Needs the assignments that an attacker may choose, and ledgers in unusual states.", "anchors": ["manta-accounting/src/transfer/mod.rs: IdentityProof::identity_verification", "manta-accounting/src/wallet/signer/functions.rs: identity_proof, virtual_senders", "manta-pay/src/signer/base.rs: identity_verification"]}
{"id": "C61", "title": "A phase-two contribution multiplies the secret and changes nothing else", "statement": "A contribution to a Groth16 key that passes verify_transform multiplies delta by one factor in both groups, divides every point of the two queries by it and changes no other point, unless the random scalar drawn for one point was the only one to accept; the contribution of an honest participant passes for every draw; the check never panics; after any chain of accepted contributions the key is the initial one with delta multiplied by a factor that is not zero.", "quantifier": "every field, every pair of prime-order groups with a pairing, every hash and challenge, every size of the queries, every chain", "why_tests_cant": "The tests run honest chains over one curve; that a wrong state is rejected depends on all points and on the random combination.", "anchors": ["manta-trusted-setup/src/groth16/mpc.rs: contribute, check_invariants, verify_transform", "manta-crypto/src/arkworks/ratio.rs: RatioProof", "manta-crypto/src/arkworks/pairing.rs: same, same_ratio", "manta-trusted-setup/src/util.rs: merge_pairs_affine, batch_mul_fixed_scalar"]}
{"id": "C62", "title": "A phase-two contributor knows the factor", "statement": "A contribution that passes verify_transform comes with a ratio proof that its author could make only with the factor between the two deltas.", "quantifier": "every state, every proof", "why_tests_cant": "Concerns proofs that no honest participant makes.", "anchors": ["manta-crypto/src/arkworks/ratio.rs: RatioProof::verify", "manta-trusted-setup/src/groth16/mpc.rs: verify_transform, Proof", "manta-trusted-setup/src/groth16/ceremony/coordinator.rs: update"]}
{"id": "C63", "title": "Checking a chain at once agrees with checking it step by step", "statement": "verify_transform_all accepts a chain of contributions exactly when verify_transform accepts each of them.", "quantifier": "every chain of states and proofs, every draw", "why_tests_cant": "Needs chains with wrong states in the middle.", "anchors": ["manta-trusted-setup/src/groth16/mpc.rs: verify_transform_all"]}
{"id": "C64", "title": "An accumulator of phase one consists of the powers of its secrets", "statement": "The initial accumulator has the powers of the secrets one; an update multiplies the three secrets; what passes verify_transform consists of the powers of some three secrets, each list in full, unless the random scalar drawn for one power was the only one to accept; the contribution of an honest participant passes for every draw; the check does not panic on accumulators with two powers.", "quantifier": "every field, every pair of prime-order groups with a pairing, every hash and challenge, every number of powers", "why_tests_cant": "The number of powers is a parameter of the code, millions in use and a handful in tests; the random combination has to catch every wrong power.", "anchors": ["manta-trusted-setup/src/groth16/kzg.rs: Accumulator::update, verify_transform, Contribution::proof, Proof::verify", "manta-trusted-setup/src/util.rs: power_pairs"]}
{"id": "C65", "title": "The secrets of phase one are never lost", "statement": "After any chain of accepted contributions each secret of the accumulator is the product of the initial one with the factors shown by the proofs, and it is not zero.", "quantifier": "every chain, every initial accumulator with secrets that are not zero", "why_tests_cant": "Chains of any length with proofs that no honest participant makes.", "anchors": ["manta-trusted-setup/src/groth16/kzg.rs: Accumulator::verify_transform, Proof::verify, CanonicalDeserialize for Proof", "manta-trusted-setup/src/util.rs: NonZero"]}
{"id": "C66", "title": "The inverse of a matrix is its inverse", "statement": "For a square matrix with at least one row the inversion by elimination never panics; what it returns is the inverse on both sides; it returns nothing only for a matrix that sends some vector other than zero to zero; and it returns the inverse of every matrix that has one.", "quantifier": "every field, every size, every square matrix", "why_tests_cant": "The tests invert a few matrices; singular ones and the choice of pivots depend on all entries.", "anchors": ["manta-pay/src/crypto/poseidon/matrix.rs: inverse, upper_triangular, reduce_to_identity, eliminate"]}
{"id": "C67", "title": "Products of matrices and vectors", "statement": "The product of two matrices, and of a matrix with a column or a row, is returned exactly when the inner dimensions agree, and it is the product.", "quantifier": "every field, every pair of shapes, all entries", "why_tests_cant": "All shapes; the tests multiply square matrices.", "anchors": ["manta-pay/src/crypto/poseidon/matrix.rs: MatrixOperations::matmul, mul_col_vec, mul_row_vec_at_left, transpose"]}
{"id": "C68", "title": "Poseidon matrices factor into sparse matrices", "statement": "For an invertible matrix whose tail, without the first row and column, is invertible, the derived matrices exist; the two factors multiply to the matrix; and k + 1 products with the matrix, with any functions applied to the first element between them, equal one product with the first factor of the factorization and k products with its sparse matrices.", "quantifier": "every field, every width of at least two, every such matrix, every k, all functions and vectors", "why_tests_cant": "The equivalence is over all vectors, all numbers of rounds and all S-boxes.", "anchors": ["manta-pay/src/crypto/poseidon/mds.rs: MdsMatrices::derive_mds_matrices, make_prime, make_double_prime, make_v_w, factor_to_sparse_matrixes, SparseMatrix"]}
{"id": "C69", "title": "Compressed round constants give the same permutation", "statement": "The permutation computed with compressed round constants, with the matrix or with its sparse factors, is the permutation computed round by round.", "quantifier": "every field, S-box, width of at least two, even number of full rounds, number of partial rounds, all keys, all states", "why_tests_cant": "Depends on all constants and all states; the tests compare a few numbers of constants.", "anchors": ["manta-pay/src/crypto/poseidon/preprocessing.rs: compress_round_constants", "manta-pay/src/crypto/poseidon/mod.rs: Permutation::permute, full_round, partial_round", "manta-pay/src/crypto/poseidon/mds.rs: factor_to_sparse_matrixes"]}
{"id": "C70", "title": "The generated matrix is maximum distance separable", "statement": "When the numbers below three times the width are not zero in the field, the generated matrix exists and is symmetric, every square submatrix of it is nonsingular, all derived matrices exist and so does its factorization into any number of sparse matrices.", "quantifier": "every field, every width of at least two", "why_tests_cant": "There are exponentially many submatrices; the tests check the inverse of one matrix.", "anchors": ["manta-pay/src/crypto/poseidon/mds.rs: MdsMatrices::new, generate_mds"]}
{"id": "C71", "title": "The Poseidon permutation is a permutation", "statement": "With an S-box that is one to one, such as a power with an inverse exponent, and an invertible matrix the permutation is one to one and onto; a hash is the permutation of the domain tag and the inputs, cut to one element, and before cutting it is different for different inputs.", "quantifier": "every field, width, even number of full rounds, number of partial rounds, all keys, all states", "why_tests_cant": "Concerns all states of a field with 2^255 elements.", "anchors": ["manta-pay/src/crypto/poseidon/mod.rs: Permutation::permute, full_round, partial_round, mds_matrix_multiply, first_round_with_domain_tag_unchecked", "manta-pay/src/crypto/poseidon/hash.rs: Hasher::hash_untruncated", "manta-pay/src/crypto/poseidon/arkworks.rs: apply_sbox"]}
{"id": "C72", "title": "The generator of round constants", "statement": "The circular buffer is the 80-bit shift register of GKRRS19 with the seed of the paper: what the iterator delivers are the second bits of those pairs, after 160 discarded updates, whose first bit is set, and it always returns. Different configurations have different generators. A sampled element is the first block of delivered bits that is below the modulus, and the round constants are these elements, one for every cell of every round.", "quantifier": "every modulus size, width, numbers of rounds, every number of delivered bits, every modulus", "why_tests_cant": "Termination of the iterator is about all states of the register; the tests compare 189 constants of one configuration.", "anchors": ["manta-pay/src/crypto/poseidon/lfsr.rs: GrainLFSR", "manta-pay/src/crypto/poseidon/round_constants.rs: sample_field_element, generate_lfsr, generate_round_constants"]}
{"id": "C73", "title": "Poseidon as configured is a permutation", "statement": "Over the scalar field of BN254, whose order is prime, the fifth power is one to one and onto; for the four configured widths the matrix and the matrices derived from it exist and, with any round constants, the permutation is one to one and onto, so that untruncated hashes of different inputs are different.", "quantifier": "all round constants, all states of the four configurations", "why_tests_cant": "The field has 2^254 elements, and its order is proved prime.", "anchors": ["manta-pay/src/config/poseidon.rs: Spec", "manta-pay/src/config/mod.rs: ConstraintField", "manta-pay/src/crypto/poseidon/arkworks.rs: Specification", "manta-pay/src/crypto/poseidon/mds.rs: MdsMatrices::new"]}
{"id": "C74", "title": "Authorization signatures", "statement": "Signing with a spending key and an authorization that fits it gives a signature that is accepted for the authorization key, and nothing is signed for one that does not fit. For a key, a nonce and a message only one scalar is accepted. No signature is accepted under the point at infinity. Two signatures with one nonce and different hashes determine the signing key.", "quantifier": "every group with a generator of prime order, every hash function, all keys, randomness, nonces and messages", "why_tests_cant": "Concerns all keys and messages; the tests sign random messages with random keys.", "anchors": ["manta-crypto/src/signature/mod.rs: schnorr::Schnorr::derive, sign, verify", "manta-accounting/src/transfer/utxo/protocol.rs: derive_context, prove, verify, derive_signing_key, sign, assert_authorized", "manta-accounting/src/transfer/utxo/auth.rs: sign, AuthorizationSignature::generate, Authorization::from_spending_key"]}
{"id": "C75", "title": "Keys of an authorization context", "statement": "The viewing key, the decryption key, the receiving key and the address of a context that fits a spending key are the functions of the spending key, however often and in whichever order they were asked for before.", "quantifier": "every spending key, every sequence of uses of the context", "why_tests_cant": "Concerns all sequences of uses and contexts loaded from outside.", "anchors": ["manta-accounting/src/transfer/utxo/protocol.rs: AuthorizationContext, derive_context, derive_decryption_key, derive_address, address_from_spending_key", "manta-accounting/src/wallet/signer/mod.rs: load_authorization_context"]}
{"id": "C76", "title": "Posts are signed correctly", "statement": "A post made by into_post passes the check of the authorization signature; it is made exactly when an authorization that fits the spending key is given for a shape with senders, or none for one without.", "quantifier": "every shape, authorization, body, list of sink accounts and nonce", "why_tests_cant": "Concerns all combinations of shapes and arguments.", "anchors": ["manta-accounting/src/transfer/mod.rs: Transfer::into_post, TransferPost::has_valid_authorization_signature"]}
{"id": "C77", "title": "Reading back the data of transactions", "statement": "Asking for the data of a post never panics and answers the amounts and openings of exactly the receivers that are ours and describe their utxos, in order; a list of posts has one answer for each. Signing with data gives the posts, error and state of signing, and the data are those of the coins the posts make for the signer's own address. It succeeds whenever signing does.", "quantifier": "every post, address, list of posts, state of the signer and transaction", "why_tests_cant": "Concerns posts with any participants and notes made by others; the tests ask for the data of posts of the same signer.", "anchors": ["manta-accounting/src/wallet/signer/functions.rs: transaction_data, batched_transaction_data, sign_with_transaction_data", "manta-accounting/src/wallet/signer/mod.rs: Signer::transaction_data, batched_transaction_data, sign_with_transaction_data", "manta-accounting/src/transfer/canonical.rs: TransferShape, TransactionData", "manta-accounting/src/transfer/utxo/protocol.rs: NoteOpen::open_with_check, UtxoReconstruct"]}
{"id": "C78", "title": "Initial synchronisation", "statement": "An initial synchronisation with the answers of a ledger, in pages of any size, ends after at most one read more than there are notes. It leaves the wallet and the signer at the ledger's checkpoint with no assets and with trees of the lengths and roots of the ledger's, whatever they held before and without a panic. From there on a signer whose keys were not used before stores exactly its unspent notes, as a signer does that read the whole ledger, reports every change of its balances, and has a valid membership proof for every stored note. The ledger of the simulation gives such answers.", "quantifier": "every ledger, every state of it, every paging of the answers, every state of the wallet, every later sequence of replies", "why_tests_cant": "Concerns all ledgers and histories; the tests synchronise once with the simulation, and only compare balances.", "anchors": ["manta-accounting/src/wallet/mod.rs: Wallet::initial_sync, signer_initial_sync", "manta-accounting/src/wallet/signer/mod.rs: InitialSyncData, InitialSyncRequest, Signer::initial_sync", "manta-accounting/src/wallet/signer/functions.rs: intial_sync, initial_sync_with", "manta-crypto/src/merkle_tree/forest.rs: TreeArrayMerkleForest::from_leaves_and_paths_unchecked", "manta-crypto/src/merkle_tree/partial.rs: Partial::from_leaves_and_path_unchecked", "manta-pay/src/simulation/ledger/mod.rs: Ledger::initial_read"]}
{"id": "C79", "title": "Encoding of curve points", "statement": "A point of the curve is written as 32 or 64 bytes (64 or 128 in the second group) that say its coordinates as big-endian numbers, the sign of y or infinity in the two free bits; it is read back, whatever follows. Points with the same bytes are equal. What is read is infinity or a point of the curve, and in the subgroup; which point, and which error otherwise, is determined by the number the bytes write. A point has one encoding in each form, and shorter input is refused.", "quantifier": "every curve y^2 = x^3 + b over a prime field with 3 modulo 4 elements below 2^254 and its quadratic extension, every point, every sequence of bytes, every reader", "why_tests_cant": "Concerns all points and all byte strings; the tests encode random points of the subgroup.", "anchors": ["manta-trusted-setup/src/groth16/ppot/serialization.rs: PpotSerializer", "manta-trusted-setup/src/util.rs: Serializer, Deserializer"]}
{"id": "C80", "title": "Files of the powers of tau", "statement": "No two elements of a file share a byte and none reaches into the header. From the file of an accumulator a subaccumulator of at most its size is read, in both compressions, and consists of the first powers; behind a compressed one its proof is found. Whatever the file, only points of the curves in the subgroups are accepted, in the right numbers, and proofs without the point at infinity. Invalid or short files and sizes that are too large give an error.", "quantifier": "every length of the powers, every file, size and compression", "why_tests_cant": "The files have tens of gigabytes; the tests compare the first 32 powers of two of them and are ignored by default.", "anchors": ["manta-trusted-setup/src/groth16/ppot/serialization.rs: calculate_mmap_position, ElementType, read_g1_powers, read_g2_powers, read_kzg_proof, read_subaccumulator"]}
{"id": "C81", "title": "Serialisation of accumulators and proofs", "statement": "An accumulator or a proof of its contribution is read back from both forms, and the rest of the input is left. What is read has the size asked for, and consists of points of the curves in the subgroups; a proof has no point at infinity.", "quantifier": "every accumulator, proof, size and input", "why_tests_cant": "Concerns all sizes and inputs, also invalid ones.", "anchors": ["manta-trusted-setup/src/groth16/kzg.rs: Accumulator and Proof, serialize, serialize_uncompressed, deserialize, deserialize_uncompressed, deserialize_unchecked", "manta-trusted-setup/src/util.rs: NonZero"]}
{"id": "C82", "title": "Accounts and the paths of their keys", "statement": "The path of an account of a coin is the hardened BIP-44 path m/44'/coin'/index', different for different coins and indices, and a key can be derived for every index of type u32. A new account gets the next free index and leaves the others as they are; lookups find exactly the accounts up to the last one; every account of a table has the keys of its own index.", "quantifier": "every coin, index, account map and sequence of creations", "why_tests_cant": "Concerns all indices and all sequences of creations; the repository has no test that creates a second account.", "anchors": ["manta-accounting/src/key.rs: VecAccountMap, Account, AccountTable", "manta-pay/src/key.rs: path_string, xpr_secret_key, the coin types", "manta-pay/src/signer/base.rs: spending_key, address"]}
{"id": "C83", "title": "Windowed and fixed-base multiplication", "statement": "The selection from a table gives the element whose index has the given bits. For every window size of at least 1 and every list of bits the windowed multiplication is the multiplication by the number with these bits; the multiplication with precomputed bases agrees with the one by the bits of a variable for every scalar of a circuit; reducing a scalar by the order of the point does not change the product.", "quantifier": "every group, point, window size, list of bits and scalar", "why_tests_cant": "The tests use a few random scalars below the order of the group and two window sizes.", "anchors": ["manta-crypto/src/algebra/mod.rs: Window, PrecomputedBaseTable", "manta-crypto/src/eclair/bool.rs: select_from_table", "manta-crypto/src/arkworks/algebra.rs: GroupVar::scalar_mul, fixed_base_scalar_mul"]}
{"id": "C84", "title": "Arithmetic in circuits", "statement": "For every choice of witnesses: the range assertion holds for exactly the values below 2^BITS; sums and products of unsigned integers are those of the integers and stay in the range; a selection or swap gives the values the bit says; the remainder gadget gives the remainder of the value. The native remainder is the remainder, and lifting a scalar keeps its value.", "quantifier": "every prime field, number of bits, value and assignment of witnesses", "why_tests_cant": "Tests run the gadgets with honest witnesses; a wrong proof needs other witnesses.", "anchors": ["manta-crypto/src/arkworks/constraint/mod.rs: assert_within_range, ConditionalSelect, ConditionalSwap, Rem, div_rem_mod_prime", "manta-crypto/src/eclair/num.rs: UnsignedInteger", "manta-crypto/src/arkworks/algebra.rs: modulus_is_smaller, lift_embedded_scalar", "manta-accounting/src/transfer/mod.rs: value_sum"]}
{"id": "C85", "title": "The second phase starts from Groth16 parameters", "statement": "From an accumulator of powers of the secrets tau, alpha and beta and a constraint system whose domain of size n is at most the number of powers in the second group, initialize makes the Groth16 parameters of this system for these secrets with gamma and delta 1: every query is the value at tau of the polynomial of degree below n that has the column of the matrix as its values at the roots of unity, with one more constraint for each instance variable. Contributions only change delta. With the parameters every satisfying assignment has a proof that the verifier accepts. Too few powers are an error.", "quantifier": "every pairing, secrets, constraint system, assignment and randomness of a proof", "why_tests_cant": "A test runs one small circuit; a wrong entry of a query matters only for circuits that use the variable.", "anchors": ["manta-trusted-setup/src/groth16/mpc.rs: initialize, specialize_to_phase_2, add_dummy_constraints"]}
{"id": "C86", "title": "Poseidon and Merkle paths as circuits", "statement": "For every choice of witnesses: the circuit of the Poseidon hash can be satisfied and gives the native hash of the values of its inputs; the circuit of an unknown Merkle path says that it is valid exactly if there is a native path of the same form that is accepted; the circuit of a known path agrees with native verification of this path. If the assertion of validity for the root of a list of leaves is satisfied, the leaf is in the list, or it is the default leaf and the tree is not full, or what was hashed for the path and for the tree contains a collision or a preimage of the default digest.", "quantifier": "every prime field, parameters of the hash, inputs, height, path, leaf, root, list of leaves and assignment of witnesses", "why_tests_cant": "Tests compare one hash and a few honest paths with the native ones; soundness concerns all other witnesses.", "anchors": ["manta-pay/src/crypto/poseidon/mod.rs: Permutation", "manta-pay/src/crypto/poseidon/arkworks.rs: Compiler impls of Field, Specification", "manta-pay/src/crypto/poseidon/hash.rs: Hasher", "manta-crypto/src/merkle_tree/path.rs: constraint::InnerPathVar, PathVar", "manta-crypto/src/merkle_tree/tree.rs: assert_valid", "manta-crypto/src/arkworks/constraint/mod.rs: ConditionalSelect, ConditionalSwap, PartialEq"]}
{"id": "C87", "title": "Selection from iterators in parallel", "statement": "In every interleaving of the tasks, the listener and the consumer, the items returned by SelectAll are those of the iterators, each once and for each iterator in its order; None is returned only when all items have been; no turn of the loop of next panics; and in every pool of threads None is reached: until then something can happen, and the number of steps is bounded.", "quantifier": "every number of iterators, items, number of threads and interleaving", "why_tests_cant": "Interleavings and the number of threads are outside of the control of a test; the repository has no test of this code.", "anchors": ["manta-util/src/iter/select_all.rs: Task::send_next, SelectAll::spawn, SelectAll::next"]}
{"id": "C88", "title": "Sampling for the powers of tau, and fuzzing", "statement": "The seed of hash_to_group is the first 32 bytes of the digest, each group of four reversed, so equal seeds mean equal first 32 bytes, and a shorter digest panics. A sampled field element is below the modulus and is that of the first block of eight words whose low bits are; each element has the same number of values of the limbs for which it is taken. A sampled point is that of the first draw that gives one which is not zero after the cofactor. Fuzzing changes exactly one bit of a byte, of a big integer and of a field element, and one element of a list, and a fuzzed value is never the value.", "quantifier": "every digest, stream of words, modulus, curve and position", "why_tests_cant": "Tests compare with one recorded transcript of the ceremony and fuzz a few random values; blocks that are refused, streams and positions are far too many.", "anchors": ["manta-trusted-setup/src/util.rs: hash_to_group", "manta-trusted-setup/src/groth16/ppot/hashing.rs: PpotDistribution", "manta-crypto/src/rand.rs: fuzz"]}
{"id": "C89", "title": "Readers and writers for arkworks", "statement": "A value is decoded exactly when the underlying reader gives all that the deserializer asks for; an error of the reader is reported as an error of the reader, the first one, and the reader is not used after it; an encoding returns the first error of the writer, and success means that the serializer succeeded and that all its bytes were written.", "quantifier": "every reader, writer, deserializer and serializer, as programs that continue with what they get", "why_tests_cant": "Tests encode into vectors and decode what was encoded; readers and writers that fail or take a part only are not tested.", "anchors": ["manta-crypto/src/arkworks/serialize.rs: ArkReader, ArkWriter", "manta-crypto/src/arkworks/algebra.rs: Decode and Encode for Group", "manta-crypto/src/arkworks/groth16.rs: Decode and Encode for ProvingContext and VerifyingContext", "manta-crypto/src/arkworks/constraint/fp.rs: Decode and Encode for Fp"]}
{"id": "C90", "title": "Download, checksums and build of the parameters", "statement": "A download that succeeds leaves a file with the checksum, whatever the servers answer and whatever was there; a file that is valid is not touched; with good answers every file is repaired. A build that succeeds gives a library that gets the data of every local file and has the checksum of every other one as the checkfile says; a build fails if the hash of a file is another one.", "quantifier": "every file, answer, checkfile, set of files and hash function", "why_tests_cant": "The tests download the real files into an empty directory; files that are there already, answers that break off and wrong checkfiles are not tested.", "anchors": ["manta-parameters/src/lib.rs: github::download, Download::download_if_invalid, Get::get, verify", "manta-parameters/build.rs: main, validate_and_save_checksum, compile_lfs"]}
{"id": "C91", "title": "The checkfile of the parameters", "statement": "A checkfile that was written for files with their checksums is read back as these, for all paths; whatever is accepted is, line for line, 64 hexadecimal digits, two spaces and a path; a path that is named twice with different checksums is refused.", "quantifier": "every text and every list of paths and checksums", "why_tests_cant": "The build reads the one checkfile of the repository.", "anchors": ["manta-parameters/build.rs: parse_checkfile", "manta-parameters/generate_checkfile.sh"]}
