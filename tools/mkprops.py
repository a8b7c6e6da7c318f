#!/usr/bin/env python3
"""Regenerates properties.jsonl. Each entry: id, title, statement, quantifier, why_tests_cant, anchors."""
import json, os
P = []
def p(id, title, statement, quantifier, why, anchors):
    P.append(dict(id=id, title=title, statement=statement, quantifier=quantifier,
                  why_tests_cant=why, anchors=anchors))

MT = "manta-crypto/src/merkle_tree/"
# ---------------------------------------------------------------- Merkle trees
p("C01", "Merkle root after single insertions is the root of the inserted leaves",
  "After any sequence of successful one-at-a-time pushes into an initially empty full Merkle tree of any height >= 2, the reported root is exactly the hash of the binary tree whose leaves are the pushed digests in order, with absent leaves taken as the default leaf digest and wholly empty subtrees taken as the default inner digest; the reported length is the number of pushed leaves.",
  "every tree height >= 2, every leaf sequence up to capacity, every hash (join functions and default digests)",
  "The number of histories is unbounded in height and length; tests pick a few heights (usually 20 or 7) and a few leaves.",
  [MT+"inner_tree.rs: InnerTree::insert, insert_and_join, compute_root, map_index", MT+"full.rs: Full::push_leaf_digest, maybe_push_digest", MT+"node.rs: Parity::join, Node::sibling"])
p("C02", "Batch insertion is equivalent to inserting one at a time",
  "Pushing a list of leaves with the batch interface into a full tree that already holds any number of leaves leaves the tree with the same length, root and membership proofs as pushing the same leaves one by one.",
  "every height, every previous content, every batch (any length that fits)",
  "Correctness depends on the parity of the start and end of the batch at every level of the tree; the number of parity patterns grows with the height.",
  [MT+"inner_tree.rs: InnerTree::insert_range_and_join, compute_root_from_leaves, batch_insert", MT+"node.rs: NodeRange::join_leaves, dual_parity, parents", MT+"full.rs: batch_push_leaf_digests, batch_maybe_push_digest"])
p("C03", "Every membership proof issued by a tree verifies against its root",
  "For a full tree produced by pushes, path(i) for every stored index i verifies leaf i against the current root, the path has exactly height-2 inner digests and carries index i; path(i) for an index beyond the stored leaves is an error; and (soundness) if the hash functions are injective, a path of the right length carrying index i that verifies some leaf against the root verifies only the leaf really stored at i.",
  "every height, every push history, every index, every candidate path",
  "Quantifies over all indices of all trees and over all adversarial candidate proofs.",
  [MT+"full.rs: WithProofs::path", MT+"inner_tree.rs: InnerTree::path", MT+"path.rs: Path::verify, InnerPath::fold, root", MT+"tree.rs: Parameters::verify_path"])
p("C04", "Single-path tree agrees with the full tree",
  "A single-path tree and a full tree of the same height fed the same push sequence always report the same length, the same root, the same current leaf and current path, and accept or refuse each push alike.",
  "every height >= 2, every push sequence including those exceeding capacity",
  "The single-path structure keeps only O(height) digests, so any dropped digest only shows at a particular later length; every length must be considered.",
  [MT+"single_path.rs: SinglePath::maybe_push_digest, length_state, raw::insert", MT+"path.rs: CurrentInnerPath::update, fold, CurrentPath::root, update"])
p("C05", "Capacity is enforced exactly",
  "A full tree of height H accepts exactly 2^(H-1) leaves: a push is accepted iff fewer are stored, a refused push changes nothing observable, and the number of stored leaves never exceeds the capacity; batch pushes that do not fit report failure.",
  "every height, every push/batch history",
  "Needs every history up to and beyond 2^(H-1) leaves.",
  [MT+"full.rs: maybe_push_digest, batch_maybe_push_digest", MT+"tree.rs: capacity, Tree::extend_digests"])
p("C06", "Pruning and proof removal never disturb what is kept",
  "In a partial tree, marking leaves as non-provable and pruning at arbitrary times never changes the root or the length, never changes the membership proof of any leaf that is still provable, and never changes the outcome of any later insertion (root and proofs afterwards equal those of a tree that was never pruned).",
  "every height, every interleaving of provable pushes, non-provable pushes, proof removals and prunes",
  "A digest deleted too early is noticed only when some later leaf or later insertion needs it; all interleavings matter.",
  [MT+"partial.rs: Partial::prune, remove_path, remove_path_at_index, maybe_push_digest", MT+"leaf_map.rs: LeafBTreeMap", MT+"inner_tree.rs: PartialInnerTree::remove"])
p("C07", "A forked tree tracks the tree it was forked from, and merging equals inserting directly",
  "After forking any tree and pushing leaves to the fork, the fork's root and length equal those of the base tree with the same leaves pushed directly; merging the fork leaves the base equal to direct insertion; resetting the fork leaves the base untouched and the fork equal to the base again.",
  "every height, every base content, every sequence of pushes, merges and resets",
  "The fork is rebuilt from the base's current path; whether a digest is recoverable depends on the binary expansion of the base length.",
  [MT+"fork.rs: ForkedTree::merge_fork, reset_fork, Branch::new, generate_branch_setup", MT+"inner_tree.rs: PartialInnerTree::from_current", MT+"partial.rs: from_leaves_and_path_unchecked"])
p("C08", "Rollback of an accumulator restores the last committed state",
  "For a Merkle forest of forked trees, performing any insertions and proof queries after a commit and then rolling back leaves every shard's length and root, and every later proof, the same as at the commit; committing makes the insertions permanent.",
  "every number of shards, every interleaving of inserts, rollbacks and commits",
  "The wallet relies on it for every speculative transaction build; all interleavings matter.",
  [MT+"forest.rs: Rollback impl, insert, batch_insert, sort_items", MT+"fork.rs: reset_fork, merge_fork_partial"])
p("C09", "A shard insertion affects only that shard",
  "Inserting an item in a Merkle forest changes only the shard its key selects: all other shards keep their roots, lengths and proofs; an item proved with a shard's tree verifies against that shard's root; grouping a batch by shard keeps the relative order in each shard.",
  "every forest width, every item list",
  "All shards and all batches must be covered.",
  [MT+"forest.rs: MerkleForest insert, batch_insert, sort_items, prove"])
# ---------------------------------------------------------------- assets
p("C10", "Coin selection is sound and complete",
  "Selecting coins for a request from the wallet's asset map returns, when the available coins of that id cover the request, a set of distinct stored non-zero coins of exactly the requested id whose total equals the request plus the returned change, using a single coin on an exact match or when some coin exceeds the request (then the smallest such coin); it returns an empty selection exactly when the request is zero or the coins do not cover it.",
  "every asset map, every requested asset",
  "Ranges over all multisets of coins and requests; boundary equalities between running sums and requests are easily missed by samples.",
  ["manta-accounting/src/asset.rs: AssetMap::select, impl_asset_map_for_maps_body", "manta-accounting/src/asset.rs: Selection"])
p("C11", "Asset list keeps a sorted, zero-free, duplicate-free ledger of balances",
  "After any sequence of deposits, withdrawals and removals the asset list is strictly sorted by id and never stores a zero value; value(id) equals deposits minus withdrawals; a withdrawal succeeds iff the stored value is at least the requested value, and a refused withdrawal changes nothing; operations on one id never change another id.",
  "every operation sequence over all ids and values",
  "State space of lists and operation orders is unbounded.",
  ["manta-accounting/src/asset.rs: AssetList::deposit, withdraw, withdraw_unchecked, set_or_remove, remove, find"])
p("C12", "Wallet balance bookkeeping",
  "For the map-based balance state: deposit adds exactly, withdraw succeeds iff the balance covers it and otherwise changes nothing, zero balances are not stored, and a failed withdraw_all leaves the balances as they were.",
  "every sequence of deposits, withdrawals and bulk withdrawals",
  "Failure in the middle of a bulk operation depends on order and amounts.",
  ["manta-accounting/src/wallet/balance.rs: BalanceState, impl for HashMap/BTreeMap, withdraw_all"])
p("C13", "Normalising a sync result cancels deposits against withdrawals",
  "The signer's normalisation of deposits and withdrawals keeps the net change of every asset id unchanged, and afterwards no asset id appears both as a deposit and as a withdrawal.",
  "every pair of deposit and withdrawal lists",
  "The in-place two-index loop has data-dependent skipping; samples with few equal pairs do not expose it.",
  ["manta-accounting/src/wallet/signer/functions.rs: normalize_assets, sum_values"])
p("C14", "Syncing keeps the wallet's assets equal to its unspent notes",
  "After any sequence of syncs, the signer's stored assets are exactly the received notes whose nullifier has not been reported, independent of how the ledger data is split into syncs; the deposits minus withdrawals reported to the wallet equal the change of the stored total per asset id.",
  "every ledger history and every split of it into sync batches",
  "Order and batching of notes and nullifiers are unbounded.",
  ["manta-accounting/src/wallet/signer/functions.rs: sync_with, insert_next_item, is_asset_unspent", "manta-accounting/src/wallet/signer/nullifier_map.rs"])
p("C15", "A failed signing request does not change the signer",
  "If signing or consolidation returns an error, the signer's accumulator, assets and checkpoint are as before the call.",
  "every signer state and request, every point at which the build may fail",
  "Failure can occur after any number of speculative insertions.",
  ["manta-accounting/src/wallet/signer/functions.rs: sign, consolidate, sign_internal"])
p("C16", "Batched joins conserve value and finish with exactly the number of final senders",
  "Combining n selected coins through rounds of 2-to-2 joins terminates, every join has equal input and output total, all coins but the padding are consumed exactly once, the process ends with exactly two senders whose total equals the total of the selected coins.",
  "every number and value of selected coins",
  "Unbounded number of rounds; off-by-one in the pairing appears at particular residues.",
  ["manta-accounting/src/wallet/signer/functions.rs: compute_batched_transactions, next_join, prepare_final_pre_senders, virtual_senders", "manta-util/src/iter/chunk_by.rs", "manta-accounting/src/transfer/batch.rs: Join::new"])
p("C17", "Withdrawing to the public ledger pays exactly the requested amount",
  "Building to-public transactions for a request releases to the public sinks exactly the requested total, returns the exact remainder as private change, and spends each selected coin exactly once.",
  "every list of selected coins and every requested amount they cover",
  "The amounts depend on running differences over all coins.",
  ["manta-accounting/src/wallet/signer/functions.rs: compute_to_public_transaction, process_to_public_senders"])
p("C18", "Consolidation requests are validated as documented",
  "ConsolidationRequest::new returns a request iff there are at least two assets, all of the same id, none of zero value and no entry repeated.",
  "every list of identified assets",
  "The conditions are per-position; a missed position is only seen with the right list.",
  ["manta-accounting/src/wallet/signer/mod.rs: ConsolidationRequest::new, check, select"])
p("C19", "Sync pruning removes exactly the data already seen",
  "When a ledger reply starting at an origin checkpoint reaches a signer that is already further ahead, pruning removes exactly the notes and nullifiers the signer has already processed and keeps the others in order; it never panics and never drops unseen data.",
  "every origin checkpoint, signer checkpoint and data batch",
  "Checkpoints are vectors; the interesting cases are incomparable vectors and partial batches.",
  ["manta-pay/src/signer/base.rs: Checkpoint::prune", "manta-pay/src/config/utxo.rs: Checkpoint", "manta-accounting/src/wallet/signer/functions.rs: prune_sync_request"])
p("C20", "Checkpoint after a sync equals the number of items processed",
  "After sync (and sbt_sync) the signer's checkpoint counts, for every shard and for nullifiers, exactly the ledger items it has processed, even when part of the reply had been seen before.",
  "every sequence of overlapping ledger replies",
  "Overlap patterns are unbounded.",
  ["manta-accounting/src/wallet/signer/functions.rs: sync, sbt_sync", "manta-accounting/src/wallet/signer/mod.rs: SyncRequest::utxo_count", "manta-pay/src/signer/base.rs: update_from_utxo_count, update_from_utxo_accumulator"])
p("C21", "The estimated number of transactions is the number produced",
  "The estimate of transfer posts for a transaction equals the number of posts that signing the same transaction on the same state produces, and estimating never fails when signing would not.",
  "every signer state and transaction",
  "Needs agreement for all coin selections.",
  ["manta-accounting/src/wallet/signer/mod.rs: Signer::estimate_transferposts", "manta-accounting/src/wallet/signer/functions.rs: sign_after_selection_private_transfer, compute_to_public_transaction"])
# ---------------------------------------------------------------- ledger
p("C22", "No note can be spent twice",
  "On the simulated ledger, in every history of pushed posts, two accepted spends never carry the same nullifier commitment, whether in one post, in one push or in different pushes.",
  "every history of posts, every adversarial choice of nullifier fields",
  "Adversarial histories are unbounded and the set lookup depends on hashing details.",
  ["manta-pay/src/simulation/ledger/mod.rs: is_unspent, spend, push", "manta-accounting/src/transfer/mod.rs: TransferPost::validate", "manta-accounting/src/transfer/utxo/protocol.rs: FullNullifier Eq/Hash", "manta-util/src/vec.rs: all_unequal"])
p("C23", "Only posts with a valid proof are accepted",
  "A post whose zero-knowledge proof does not verify is rejected by the ledger and leaves it unchanged.",
  "every post, every verification outcome (error, false, true)",
  "The unit tests only push proofs that verify or fail to decode.",
  ["manta-pay/src/simulation/ledger/mod.rs: is_valid", "manta-accounting/src/transfer/mod.rs: TransferPost::validate"])
p("C24", "Public balances move exactly as the post says; rejected posts change nothing",
  "Applying an accepted post debits each source and credits each sink by exactly the stated amounts of the stated asset, so the total public supply changes by sinks minus sources; a post that fails validation leaves every balance, note set and nullifier set unchanged; a source is never debited below zero.",
  "every ledger state and post",
  "All balance configurations, including repeated accounts among sources and sinks.",
  ["manta-pay/src/simulation/ledger/mod.rs: update_public_balances, check_source_accounts, check_sink_accounts, push", "manta-accounting/src/transfer/mod.rs: TransferPostingKey::post, check_public_participants"])
p("C25", "Withdrawals credit the accounts the spender signed",
  "If a post with spends is accepted, the public accounts credited are the sink accounts covered by the spender's authorization signature.",
  "every post, every submitting account",
  "Requires an adversarial submitter; honest tests submit from the signed account.",
  ["manta-pay/src/simulation/ledger/mod.rs: push", "manta-accounting/src/transfer/mod.rs: has_valid_authorization_signature, check_public_participants, BodyWithAccounts"])
p("C26", "Incremental pulls deliver every ledger item exactly once",
  "A reader that repeatedly pulls from the ledger, each time passing the checkpoint returned by the previous pull, receives, per shard and in order, every registered note and every nullifier exactly once, and learns whether more data remains.",
  "every interleaving of ledger pushes and pulls, every chunk limit",
  "All interleavings of growth and reads.",
  ["manta-pay/src/simulation/ledger/mod.rs: pull, pull_receivers, pull_senders", "manta-accounting/src/wallet/ledger.rs"])
p("C27", "The initial read delivers the whole note set",
  "The initial-synchronisation read returns every registered note of every shard, in order, up to the requested limit, so that a wallet starting from it has a complete accumulator.",
  "every ledger state",
  "Off-by-shard-number errors only appear with several populated shards.",
  ["manta-pay/src/simulation/ledger/mod.rs: initial_read", "manta-accounting/src/wallet/mod.rs: initial_sync"])
p("C28", "Every accepted output note becomes spendable",
  "If a post is accepted, each of its output notes is inserted in the ledger's note accumulator so that the owner can later prove membership.",
  "every ledger state including full shards",
  "Requires filling a 2^19-leaf shard.",
  ["manta-pay/src/simulation/ledger/mod.rs: register", MT+"forest.rs"])
p("C29", "Authorization signatures are required exactly for private spends",
  "A post is accepted only if: it carries a verifying signature when it has private senders, carries none when it has no private senders, its nullifiers are pairwise different, its outputs are pairwise different and unregistered, each spend refers to a known accumulator output, and the public parts are well-formed.",
  "every post and ledger state",
  "Conjunction of all checks over all malformed posts.",
  ["manta-accounting/src/transfer/mod.rs: TransferPost::validate, has_valid_authorization_signature, check_public_participants", "manta-accounting/src/transfer/sender.rs, receiver.rs"])
# ---------------------------------------------------------------- codec
p("C30", "Codec round trip for integers, arrays and sequences",
  "Decoding the encoding of any unsigned integer, boolean, array or vector of encodable values returns the value and exactly the unread remainder of the input; encodings of one type are prefix-free, hence unambiguous.",
  "every value, every trailing byte string",
  "All values and lengths.",
  ["manta-util/src/codec.rs: Encode, Decode impls"])
p("C31", "Codec round trip for Option and Result",
  "Decoding the encoding of any Option or Result value returns the value.",
  "every value",
  "No existing unit test covers these instances.",
  ["manta-util/src/codec.rs: impl Encode for Option, Result; impl Decode for Option, Result"])
p("C32", "Writers report what they did not write and fixed buffers accept multi-part encodings",
  "write() leaves in its input slice exactly the bytes not written; encoding a value of exact size N into an N-byte array and decoding from it round-trips, also when the encoding is written in several parts.",
  "every writer, every input, every multi-part value",
  "All splits of the data into parts.",
  ["manta-util/src/codec.rs: Write for Vec<u8>, [u8; N], EncodeExactSize::to_array, DecodeExactSize::from_array, Read for [u8; N]"])
p("C33", "The byte encoding of a transfer post determines the post",
  "Two different transfer posts never have the same encoding.",
  "every pair of posts",
  "Injectivity ranges over pairs.",
  ["manta-accounting/src/transfer/mod.rs: Encode for TransferPost"])
# ---------------------------------------------------------------- crypto
p("C34", "Note encryption round trip",
  "Decrypting with the right key and header what was encrypted returns the plaintext and a verifying tag, for every permutation and every number of blocks; any change of the ciphertext's block contents with the same tag is detected unless it collides in the permutation state.",
  "every permutation, key, header, plaintext block sequence",
  "All permutations/keys/lengths.",
  ["manta-crypto/src/permutation/duplex.rs", "manta-crypto/src/permutation/sponge.rs", "manta-pay/src/crypto/poseidon/encryption.rs"])
p("C35", "Encrypted container header round trip and rejection",
  "Parsing a serialised container header returns the same configuration, salt, nonce and length; headers with a wrong magic, version, cipher, key-derivation or variant byte, or shorter than the fixed size, are rejected; wrap followed by unwrap returns the data for any authenticated cipher.",
  "every header and byte string",
  "All byte strings.",
  ["forks/cocoon/src/header.rs", "forks/cocoon/src/format.rs", "forks/cocoon/src/lib.rs: wrap, unwrap, decrypt_parsed", "forks/cocoon/src/mini.rs"])
p("C36", "Encrypting never reuses a nonce",
  "Two encryptions made with one seeded container object, and in particular the successive blocks of one encrypted file, use different nonces under the same key.",
  "every sequence of encrypt calls",
  "Unit tests encrypt once per object.",
  ["forks/cocoon/src/mini.rs: MiniCocoon::encrypt", "forks/cocoon/src/lib.rs: Cocoon::encrypt", "manta-accounting/src/fs/mod.rs: cocoon::File"])
p("C37", "Encrypted file save and load round trip",
  "Loading a saved value from an encrypted file returns the same value whatever its size relative to the block size.",
  "every serialisable value tree",
  "All sizes and nestings.",
  ["manta-accounting/src/fs/serde.rs: Serializer, Deserializer", "manta-accounting/src/fs/mod.rs: Block"])
# ---------------------------------------------------------------- ceremony
TS="manta-trusted-setup/src/"
p("C38", "A rejected contribution leaves the ceremony unchanged",
  "If the server answers a contribution with an error because some circuit's state or proof is invalid, the ceremony state and challenges served to the next participant are those from before the request.",
  "every contribution over every number of circuits",
  "Failure at any circuit position.",
  [TS+"groth16/ceremony/coordinator.rs: StateChallengeProof::update", TS+"groth16/ceremony/server.rs: update"])
p("C39", "Each participant contributes at most once",
  "In every execution with concurrent requests, the number of successfully applied contributions of a participant is at most one.",
  "every interleaving of concurrent query and update requests, clock ticks included",
  "Schedules are unbounded; the race needs two in-flight requests.",
  [TS+"groth16/ceremony/server.rs: Server::update, query", TS+"groth16/ceremony/coordinator.rs: LockQueue, preprocess_request"])
p("C40", "A signed request is accepted at most once",
  "Within one run of the server each participant's accepted requests carry strictly increasing nonces, so no signed message is processed twice; a request with any other nonce is answered with the expected nonce and changes nothing.",
  "every schedule of requests, replays included",
  "All replays in all orders.",
  [TS+"groth16/ceremony/coordinator.rs: preprocess_request", TS+"ceremony/signature.rs: Nonce, SignedMessage::verify"])
p("C41", "Contributions are applied only while the contributor holds the lock",
  "At the moment a contribution is applied to the ceremony state its sender holds the contribution lock, and finishing a contribution releases only the contributor's own lock.",
  "every interleaving of requests and clock",
  "Timeout while a contribution is being verified depends on scheduling.",
  [TS+"groth16/ceremony/server.rs: Server::update", TS+"groth16/ceremony/coordinator.rs: update_expired_lock, has_lock"])
p("C42", "A crash at any point is recoverable",
  "If the server process stops at any point while handling a contribution, recover() restarts it with the state of the last completed round: either before or after the contribution, never a mixture, and never fails.",
  "every crash point between the individual file writes of a contribution, every number of circuits",
  "All crash points.",
  [TS+"groth16/ceremony/coordinator.rs: StateChallengeProof::save, save_registry", TS+"groth16/ceremony/server.rs: recover, update"])
p("C43", "A waiting participant has one place in the queue",
  "In every execution a participant occurs at most once in the waiting queue, participants of the same priority are served in arrival order, and higher priorities are served first.",
  "every sequence of queries, timeouts and contributions",
  "Depends on the order of timeouts and queries.",
  ["manta-util/src/collections/vec_deque.rs: MultiVecDeque", TS+"groth16/ceremony/server.rs: query", TS+"groth16/ceremony/coordinator.rs: LockQueue"])
p("C44", "The recorded contributions form a verifiable transcript",
  "The sequence of rounds saved by a server that handled only sequential requests, each accepted or rejected, verifies as a transcript from the initial state and challenge to the current ones.",
  "every sequence of contribution requests",
  "Unbounded number of rounds with rejected requests in between.",
  [TS+"mpc.rs: Verify::verify_transform_all, Transcript::verify", TS+"groth16/ceremony/coordinator.rs: StateChallengeProof::update", TS+"groth16/mpc.rs: verify_transform"])
p("C45", "Registry loading only adds participants",
  "Loading registration records into a live registry never alters an existing participant (key, nonce, contributed flag or priority) and reports exactly the number of new entries.",
  "every registry and record list, duplicates included",
  "All record lists.",
  [TS+"ceremony/registry/mod.rs", TS+"ceremony/registry/csv.rs: load_append_entries"])
p("C46", "A client that follows the server's nonce replies converges",
  "A client whose nonce differs from the server's and which adopts the nonce of the error reply has its next request accepted, provided no other request with its key intervenes and the nonce is not exhausted.",
  "every pair of client and server nonces",
  "All 2^64 nonces, including the exhausted one.",
  [TS+"groth16/ceremony/client.rs: contribute, update_nonce", TS+"ceremony/signature.rs: Signer::set_valid_nonce, Nonce"])
# ---------------------------------------------------------------- added while modelling
p("C47", "Decoding untrusted bytes never panics",
  "Decoding any byte sequence as any codec type returns a value or an error; it never panics.",
  "every byte sequence, every codec type",
  "Inputs are arbitrary bytes; the failing ones have enormous length prefixes.",
  ["manta-util/src/codec.rs: Decode for Vec<T>, Decode for integers, arrays, Option, Result"])
p("C48", "The asset map is the set of inserted and not removed coins",
  "After any sequence of insertions and removals the asset map holds exactly the (key, asset) pairs inserted and not removed since, each once; remove reports whether the pair was present; the sortedness that binary search relies on is kept; assets() returns the totals per id.",
  "every sequence of insertions and removals",
  "Unbounded operation sequences; removal of the last asset of a key, re-insertion and duplicates interact.",
  ["manta-accounting/src/asset.rs: AssetMap, impl_asset_map_for_maps_body (insert, remove, asset_vector, assets)"])
p("C49", "Reading the ledger never stops a wallet",
  "Whatever notes and nullifiers the ledger holds, a wallet opening them with its key finishes: data that does not decrypt or is malformed is skipped, and exactly the wallet's own well-formed notes and nullifiers are found.",
  "every reply of a ledger, every cipher, every key",
  "Malformed plaintexts under a valid authentication tag have to be made on purpose.",
  ["manta-pay/src/config/utxo.rs: IncomingAESConverter, OutgoingAESConverter", "manta-accounting/src/transfer/utxo/protocol.rs: NoteOpen::open, NullifierOpen::open", "manta-accounting/src/wallet/signer/functions.rs: sync_with"])
p("C50", "Key and header are bound by the encryption setup",
  "Different pairs of key and header absorb different setup blocks, so a ciphertext made for one pair is not a ciphertext of another unless the permutation collides.",
  "every key and header of any length",
  "All lengths and paddings.",
  ["manta-pay/src/crypto/poseidon/encryption.rs: Setup::setup", "manta-util/src/vec.rs: padded_chunks_with"])
p("C51", "Opening container bytes never stops the program",
  "Whatever bytes are handed to the container readers, they return a value or an error; no length field, which is read before anything is authenticated, makes them panic or abort.",
  "every byte string, password and memory size",
  "All 64-bit length fields, including the last few before the overflow.",
  ["forks/cocoon/src/lib.rs: Cocoon::unwrap, parse", "forks/cocoon/src/mini.rs: MiniCocoon::unwrap, parse"])
p("C52", "A changed encrypted file does not load as something else",
  "A file that was changed by someone who does not know the password is not loaded as a value other than the one saved.",
  "every value, every rearrangement of the stored file",
  "All permutations, replacements and truncations of stored blocks.",
  ["manta-accounting/src/fs/mod.rs: cocoon::File, Block", "manta-accounting/src/fs/serde.rs: Deserializer", "forks/cocoon/src/mini.rs"])
# ---------------------------------------------------------------- wallet
p("C53", "The wallet shows the unspent notes",
  "After every successful synchronisation the balances shown by the wallet are the sums of its notes that are unspent on the ledger at its checkpoint, also after errors, resets and restarts; a transaction that the balance check lets through is not refused by the signer for lack of funds; synchronising with an honest ledger does not panic.",
  "every ledger, every sequence of syncs, loads, resets, restarts and signatures",
  "All orders of operations, including those where wallet and signer stand at different checkpoints.",
  ["manta-accounting/src/wallet/mod.rs: Wallet::sync, sync_with, process_sync_response, restart, load_initial_state, check, sign", "manta-accounting/src/wallet/balance.rs: BTreeMapBalanceState"])
p("C54", "What the signer signs is accepted",
  "The posts that the signer makes for a deposit, a transfer, a payment or a consolidation, pushed to the ledger that it is synchronised with, are all accepted; the ledger then has the nullifiers of the spent coins, the notes of the receivers, and the account's balance changed by exactly the amount of the request.",
  "every reachable ledger, every signer synchronised with it, every request that the signer answers",
  "The roots of all shards, the joins and the order in which the posts change the shards are involved together; only runs over particular shards and coin sets are tested.",
  ["manta-accounting/src/wallet/signer/functions.rs: sign, compute_batched_transactions, consolidate", "manta-accounting/src/transfer/mod.rs: TransferPost::validate, post, Transfer::into_post", "manta-pay/src/simulation/ledger/mod.rs: Ledger::push"])
p("C55", "A request and its synchronisation conserve value",
  "After the posts of a request are pushed, the next synchronisation succeeds, and for every asset the private funds of the signer, the public balance of the account and what was given to others add up to what they were before; the signer is synchronised again, so that this holds for sessions of any length.",
  "every reachable ledger, every session of requests, pushes and synchronisations",
  "Any number of requests of any kind in any order.",
  ["manta-accounting/src/wallet/signer/functions.rs: sign, sync", "manta-accounting/src/wallet/mod.rs: Wallet::post", "manta-pay/src/simulation/ledger/mod.rs: Ledger::push, pull"])
p("C56", "Extending a tree takes exactly what fits",
  "Extending a Merkle tree by an iterator of digests (extend, extend_digests, from_iter, from_slice) succeeds exactly when the digests fit, is then the same as pushing them one by one, and otherwise changes nothing.",
  "every height of at least 2, every reachable full, single-path and partial tree, every iterator",
  "All sizes up to the capacity and all size hints; the tests use a few leaves in large trees.",
  ["manta-crypto/src/merkle_tree/tree.rs: extend, extend_digests, from_iter, from_slice"])
p("C57", "Trunks and forks behave as lists of leaves",
  "A fork that shares the tree of a trunk through a weak pointer has the leaves of the trunk followed by its own; pushes are taken exactly while it is attached and has room; merging appends its leaves to the trunk and detaches all other forks; a detached fork changes nothing until it is attached again; length, root and proofs agree with the lists of leaves.",
  "every program of trunk and fork operations, every height of at least 3",
  "Any number of trunks and forks in any order of forking, pushing, attaching and merging.",
  ["manta-crypto/src/merkle_tree/fork.rs: Trunk, Fork, Branch", "manta-util/src/pointer.rs: PointerFamily"])
p("C58", "The validity constraints of a transfer say what they should",
  "An assignment that satisfies the constraints of a transfer has senders and receivers of one asset id, the public one if there is one; the senders are utxos of the key whose randomization signs, with that key's nullifiers, and those worth something are leaves of the tree whose root is published; the receivers' utxos hold what their published notes encrypt for their keys; and the values balance exactly as numbers below 2^128. Conversely the assignment that a wallet builds for a balanced transfer satisfies them.",
  "every assignment of the variables, every height, every field of at least 2^129 elements",
  "The constraints range over field elements; wrap-around of sums and unconstrained variables show on chosen assignments only.",
  ["manta-accounting/src/transfer/mod.rs: TransferVar::build_validity_constraints, input_sum, output_sum, value_sum", "manta-accounting/src/transfer/utxo/protocol.rs: SpendSecret::well_formed_asset, MintSecret::well_formed_asset, derive_spend, derive_mint", "manta-crypto/src/merkle_tree/path.rs: constraint", "manta-crypto/src/eclair/num.rs: UnsignedInteger"])
p("C59", "The private pool does not inflate",
  "On a ledger, for every asset, what was ever paid out of the private pool plus what the unspent notes hold is what was ever paid in.",
  "every history of posts and balance settings, every number of shards",
  "Involves all posts ever accepted, all their notes and all trees.",
  ["manta-pay/src/simulation/ledger/mod.rs: Ledger::push, is_valid, is_unspent, has_matching_utxo_accumulator_output", "manta-accounting/src/transfer/mod.rs: TransferPost::validate, TransferPostingKey::post", "manta-accounting/src/transfer/utxo/protocol.rs: SpendSecret::well_formed_asset, MintSecret::well_formed_asset"])
p("C60", "Identity proofs prove an identity and nothing else",
  "An identity proof that verifies for an address was signed with a key of that address; the proof that a wallet makes verifies for its own address; and no ledger accepts the post inside an identity proof.",
  "every post, virtual asset, address and account; every reachable ledger",
  "Needs the assignments that an attacker may choose, and ledgers in unusual states.",
  ["manta-accounting/src/transfer/mod.rs: IdentityProof::identity_verification", "manta-accounting/src/wallet/signer/functions.rs: identity_proof, virtual_senders", "manta-pay/src/signer/base.rs: identity_verification"])
p("C61", "A phase-two contribution multiplies the secret and changes nothing else",
  "A contribution to a Groth16 key that passes verify_transform multiplies delta by one factor in both groups, divides every point of the two queries by it and changes no other point, unless the random scalar drawn for one point was the only one to accept; the contribution of an honest participant passes for every draw; the check never panics; after any chain of accepted contributions the key is the initial one with delta multiplied by a factor that is not zero.",
  "every field, every pair of prime-order groups with a pairing, every hash and challenge, every size of the queries, every chain",
  "The tests run honest chains over one curve; that a wrong state is rejected depends on all points and on the random combination.",
  ["manta-trusted-setup/src/groth16/mpc.rs: contribute, check_invariants, verify_transform", "manta-crypto/src/arkworks/ratio.rs: RatioProof", "manta-crypto/src/arkworks/pairing.rs: same, same_ratio", "manta-trusted-setup/src/util.rs: merge_pairs_affine, batch_mul_fixed_scalar"])
p("C62", "A phase-two contributor knows the factor",
  "A contribution that passes verify_transform comes with a ratio proof that its author could make only with the factor between the two deltas.",
  "every state, every proof",
  "Concerns proofs that no honest participant makes.",
  ["manta-crypto/src/arkworks/ratio.rs: RatioProof::verify", "manta-trusted-setup/src/groth16/mpc.rs: verify_transform, Proof", "manta-trusted-setup/src/groth16/ceremony/coordinator.rs: update"])
p("C63", "Checking a chain at once agrees with checking it step by step",
  "verify_transform_all accepts a chain of contributions exactly when verify_transform accepts each of them.",
  "every chain of states and proofs, every draw",
  "Needs chains with wrong states in the middle.",
  ["manta-trusted-setup/src/groth16/mpc.rs: verify_transform_all"])
p("C64", "An accumulator of phase one consists of the powers of its secrets",
  "The initial accumulator has the powers of the secrets one; an update multiplies the three secrets; what passes verify_transform consists of the powers of some three secrets, each list in full, unless the random scalar drawn for one power was the only one to accept; the contribution of an honest participant passes for every draw; the check does not panic on accumulators with two powers.",
  "every field, every pair of prime-order groups with a pairing, every hash and challenge, every number of powers",
  "The number of powers is a parameter of the code, millions in use and a handful in tests; the random combination has to catch every wrong power.",
  ["manta-trusted-setup/src/groth16/kzg.rs: Accumulator::update, verify_transform, Contribution::proof, Proof::verify", "manta-trusted-setup/src/util.rs: power_pairs"])
p("C65", "The secrets of phase one are never lost",
  "After any chain of accepted contributions each secret of the accumulator is the product of the initial one with the factors shown by the proofs, and it is not zero.",
  "every chain, every initial accumulator with secrets that are not zero",
  "Chains of any length with proofs that no honest participant makes.",
  ["manta-trusted-setup/src/groth16/kzg.rs: Accumulator::verify_transform, Proof::verify, CanonicalDeserialize for Proof", "manta-trusted-setup/src/util.rs: NonZero"])
p("C66", "The inverse of a matrix is its inverse",
  "For a square matrix with at least one row the inversion by elimination never panics; what it returns is the inverse on both sides; it returns nothing only for a matrix that sends some vector other than zero to zero; and it returns the inverse of every matrix that has one.",
  "every field, every size, every square matrix",
  "The tests invert a few matrices; singular ones and the choice of pivots depend on all entries.",
  ["manta-pay/src/crypto/poseidon/matrix.rs: inverse, upper_triangular, reduce_to_identity, eliminate"])
p("C67", "Products of matrices and vectors",
  "The product of two matrices, and of a matrix with a column or a row, is returned exactly when the inner dimensions agree, and it is the product.",
  "every field, every pair of shapes, all entries",
  "All shapes; the tests multiply square matrices.",
  ["manta-pay/src/crypto/poseidon/matrix.rs: MatrixOperations::matmul, mul_col_vec, mul_row_vec_at_left, transpose"])
p("C68", "Poseidon matrices factor into sparse matrices",
  "For an invertible matrix whose tail, without the first row and column, is invertible, the derived matrices exist; the two factors multiply to the matrix; and k + 1 products with the matrix, with any functions applied to the first element between them, equal one product with the first factor of the factorization and k products with its sparse matrices.",
  "every field, every width of at least two, every such matrix, every k, all functions and vectors",
  "The equivalence is over all vectors, all numbers of rounds and all S-boxes.",
  ["manta-pay/src/crypto/poseidon/mds.rs: MdsMatrices::derive_mds_matrices, make_prime, make_double_prime, make_v_w, factor_to_sparse_matrixes, SparseMatrix"])
p("C69", "Compressed round constants give the same permutation",
  "The permutation computed with compressed round constants, with the matrix or with its sparse factors, is the permutation computed round by round.",
  "every field, S-box, width of at least two, even number of full rounds, number of partial rounds, all keys, all states",
  "Depends on all constants and all states; the tests compare a few numbers of constants.",
  ["manta-pay/src/crypto/poseidon/preprocessing.rs: compress_round_constants", "manta-pay/src/crypto/poseidon/mod.rs: Permutation::permute, full_round, partial_round", "manta-pay/src/crypto/poseidon/mds.rs: factor_to_sparse_matrixes"])
p("C70", "The generated matrix is maximum distance separable",
  "When the numbers below three times the width are not zero in the field, the generated matrix exists and is symmetric, every square submatrix of it is nonsingular, all derived matrices exist and so does its factorization into any number of sparse matrices.",
  "every field, every width of at least two",
  "There are exponentially many submatrices; the tests check the inverse of one matrix.",
  ["manta-pay/src/crypto/poseidon/mds.rs: MdsMatrices::new, generate_mds"])
p("C71", "The Poseidon permutation is a permutation",
  "With an S-box that is one to one, such as a power with an inverse exponent, and an invertible matrix the permutation is one to one and onto; a hash is the permutation of the domain tag and the inputs, cut to one element, and before cutting it is different for different inputs.",
  "every field, width, even number of full rounds, number of partial rounds, all keys, all states",
  "Concerns all states of a field with 2^255 elements.",
  ["manta-pay/src/crypto/poseidon/mod.rs: Permutation::permute, full_round, partial_round, mds_matrix_multiply, first_round_with_domain_tag_unchecked", "manta-pay/src/crypto/poseidon/hash.rs: Hasher::hash_untruncated", "manta-pay/src/crypto/poseidon/arkworks.rs: apply_sbox"])
p("C72", "The generator of round constants",
  "The circular buffer is the 80-bit shift register of GKRRS19 with the seed of the paper: what the iterator delivers are the second bits of those pairs, after 160 discarded updates, whose first bit is set, and it always returns. Different configurations have different generators. A sampled element is the first block of delivered bits that is below the modulus, and the round constants are these elements, one for every cell of every round.",
  "every modulus size, width, numbers of rounds, every number of delivered bits, every modulus",
  "Termination of the iterator is about all states of the register; the tests compare 189 constants of one configuration.",
  ["manta-pay/src/crypto/poseidon/lfsr.rs: GrainLFSR", "manta-pay/src/crypto/poseidon/round_constants.rs: sample_field_element, generate_lfsr, generate_round_constants"])
p("C73", "Poseidon as configured is a permutation",
  "Over the scalar field of BN254, whose order is prime, the fifth power is one to one and onto; for the four configured widths the matrix and the matrices derived from it exist and, with any round constants, the permutation is one to one and onto, so that untruncated hashes of different inputs are different.",
  "all round constants, all states of the four configurations",
  "The field has 2^254 elements, and its order is proved prime.",
  ["manta-pay/src/config/poseidon.rs: Spec", "manta-pay/src/config/mod.rs: ConstraintField", "manta-pay/src/crypto/poseidon/arkworks.rs: Specification", "manta-pay/src/crypto/poseidon/mds.rs: MdsMatrices::new"])
p("C74", "Authorization signatures",
  "Signing with a spending key and an authorization that fits it gives a signature that is accepted for the authorization key, and nothing is signed for one that does not fit. For a key, a nonce and a message only one scalar is accepted. No signature is accepted under the point at infinity. Two signatures with one nonce and different hashes determine the signing key.",
  "every group with a generator of prime order, every hash function, all keys, randomness, nonces and messages",
  "Concerns all keys and messages; the tests sign random messages with random keys.",
  ["manta-crypto/src/signature/mod.rs: schnorr::Schnorr::derive, sign, verify", "manta-accounting/src/transfer/utxo/protocol.rs: derive_context, prove, verify, derive_signing_key, sign, assert_authorized", "manta-accounting/src/transfer/utxo/auth.rs: sign, AuthorizationSignature::generate, Authorization::from_spending_key"])
p("C75", "Keys of an authorization context",
  "The viewing key, the decryption key, the receiving key and the address of a context that fits a spending key are the functions of the spending key, however often and in whichever order they were asked for before.",
  "every spending key, every sequence of uses of the context",
  "Concerns all sequences of uses and contexts loaded from outside.",
  ["manta-accounting/src/transfer/utxo/protocol.rs: AuthorizationContext, derive_context, derive_decryption_key, derive_address, address_from_spending_key", "manta-accounting/src/wallet/signer/mod.rs: load_authorization_context"])
p("C76", "Posts are signed correctly",
  "A post made by into_post passes the check of the authorization signature; it is made exactly when an authorization that fits the spending key is given for a shape with senders, or none for one without.",
  "every shape, authorization, body, list of sink accounts and nonce",
  "Concerns all combinations of shapes and arguments.",
  ["manta-accounting/src/transfer/mod.rs: Transfer::into_post, TransferPost::has_valid_authorization_signature"])
p("C77", "Reading back the data of transactions",
  "Asking for the data of a post never panics and answers the amounts and openings of exactly the receivers that are ours and describe their utxos, in order; a list of posts has one answer for each. Signing with data gives the posts, error and state of signing, and the data are those of the coins the posts make for the signer's own address. It succeeds whenever signing does.",
  "every post, address, list of posts, state of the signer and transaction",
  "Concerns posts with any participants and notes made by others; the tests ask for the data of posts of the same signer.",
  ["manta-accounting/src/wallet/signer/functions.rs: transaction_data, batched_transaction_data, sign_with_transaction_data", "manta-accounting/src/wallet/signer/mod.rs: Signer::transaction_data, batched_transaction_data, sign_with_transaction_data", "manta-accounting/src/transfer/canonical.rs: TransferShape, TransactionData", "manta-accounting/src/transfer/utxo/protocol.rs: NoteOpen::open_with_check, UtxoReconstruct"])
p("C78", "Initial synchronisation",
  "An initial synchronisation with the answers of a ledger, in pages of any size, ends after at most one read more than there are notes. It leaves the wallet and the signer at the ledger's checkpoint with no assets and with trees of the lengths and roots of the ledger's, whatever they held before and without a panic. From there on a signer whose keys were not used before stores exactly its unspent notes, as a signer does that read the whole ledger, reports every change of its balances, and has a valid membership proof for every stored note. The ledger of the simulation gives such answers.",
  "every ledger, every state of it, every paging of the answers, every state of the wallet, every later sequence of replies",
  "Concerns all ledgers and histories; the tests synchronise once with the simulation, and only compare balances.",
  ["manta-accounting/src/wallet/mod.rs: Wallet::initial_sync, signer_initial_sync", "manta-accounting/src/wallet/signer/mod.rs: InitialSyncData, InitialSyncRequest, Signer::initial_sync", "manta-accounting/src/wallet/signer/functions.rs: intial_sync, initial_sync_with", "manta-crypto/src/merkle_tree/forest.rs: TreeArrayMerkleForest::from_leaves_and_paths_unchecked", "manta-crypto/src/merkle_tree/partial.rs: Partial::from_leaves_and_path_unchecked", "manta-pay/src/simulation/ledger/mod.rs: Ledger::initial_read"])
p("C79", "Encoding of curve points",
  "A point of the curve is written as 32 or 64 bytes (64 or 128 in the second group) that say its coordinates as big-endian numbers, the sign of y or infinity in the two free bits; it is read back, whatever follows. Points with the same bytes are equal. What is read is infinity or a point of the curve, and in the subgroup; which point, and which error otherwise, is determined by the number the bytes write. A point has one encoding in each form, and shorter input is refused.",
  "every curve y^2 = x^3 + b over a prime field with 3 modulo 4 elements below 2^254 and its quadratic extension, every point, every sequence of bytes, every reader",
  "Concerns all points and all byte strings; the tests encode random points of the subgroup.",
  ["manta-trusted-setup/src/groth16/ppot/serialization.rs: PpotSerializer", "manta-trusted-setup/src/util.rs: Serializer, Deserializer"])
p("C80", "Files of the powers of tau",
  "No two elements of a file share a byte and none reaches into the header. From the file of an accumulator a subaccumulator of at most its size is read, in both compressions, and consists of the first powers; behind a compressed one its proof is found. Whatever the file, only points of the curves in the subgroups are accepted, in the right numbers, and proofs without the point at infinity. Invalid or short files and sizes that are too large give an error.",
  "every length of the powers, every file, size and compression",
  "The files have tens of gigabytes; the tests compare the first 32 powers of two of them and are ignored by default.",
  ["manta-trusted-setup/src/groth16/ppot/serialization.rs: calculate_mmap_position, ElementType, read_g1_powers, read_g2_powers, read_kzg_proof, read_subaccumulator"])
p("C81", "Serialisation of accumulators and proofs",
  "An accumulator or a proof of its contribution is read back from both forms, and the rest of the input is left. What is read has the size asked for, and consists of points of the curves in the subgroups; a proof has no point at infinity.",
  "every accumulator, proof, size and input",
  "Concerns all sizes and inputs, also invalid ones.",
  ["manta-trusted-setup/src/groth16/kzg.rs: Accumulator and Proof, serialize, serialize_uncompressed, deserialize, deserialize_uncompressed, deserialize_unchecked", "manta-trusted-setup/src/util.rs: NonZero"])
p("C82", "Accounts and the paths of their keys",
  "The path of an account of a coin is the hardened BIP-44 path m/44'/coin'/index', different for different coins and indices, and a key can be derived for every index of type u32. A new account gets the next free index and leaves the others as they are; lookups find exactly the accounts up to the last one; every account of a table has the keys of its own index.",
  "every coin, index, account map and sequence of creations",
  "Concerns all indices and all sequences of creations; the repository has no test that creates a second account.",
  ["manta-accounting/src/key.rs: VecAccountMap, Account, AccountTable", "manta-pay/src/key.rs: path_string, xpr_secret_key, the coin types", "manta-pay/src/signer/base.rs: spending_key, address"])
p("C83", "Windowed and fixed-base multiplication",
  "The selection from a table gives the element whose index has the given bits. For every window size of at least 1 and every list of bits the windowed multiplication is the multiplication by the number with these bits; the multiplication with precomputed bases agrees with the one by the bits of a variable for every scalar of a circuit; reducing a scalar by the order of the point does not change the product.",
  "every group, point, window size, list of bits and scalar",
  "The tests use a few random scalars below the order of the group and two window sizes.",
  ["manta-crypto/src/algebra/mod.rs: Window, PrecomputedBaseTable", "manta-crypto/src/eclair/bool.rs: select_from_table", "manta-crypto/src/arkworks/algebra.rs: GroupVar::scalar_mul, fixed_base_scalar_mul"])
p("C84", "Arithmetic in circuits",
  "For every choice of witnesses: the range assertion holds for exactly the values below 2^BITS; sums and products of unsigned integers are those of the integers and stay in the range; a selection or swap gives the values the bit says; the remainder gadget gives the remainder of the value. The native remainder is the remainder, and lifting a scalar keeps its value.",
  "every prime field, number of bits, value and assignment of witnesses",
  "Tests run the gadgets with honest witnesses; a wrong proof needs other witnesses.",
  ["manta-crypto/src/arkworks/constraint/mod.rs: assert_within_range, ConditionalSelect, ConditionalSwap, Rem, div_rem_mod_prime", "manta-crypto/src/eclair/num.rs: UnsignedInteger", "manta-crypto/src/arkworks/algebra.rs: modulus_is_smaller, lift_embedded_scalar", "manta-accounting/src/transfer/mod.rs: value_sum"])
p("C85", "The second phase starts from Groth16 parameters",
  "From an accumulator of powers of the secrets tau, alpha and beta and a constraint system whose domain of size n is at most the number of powers in the second group, initialize makes the Groth16 parameters of this system for these secrets with gamma and delta 1: every query is the value at tau of the polynomial of degree below n that has the column of the matrix as its values at the roots of unity, with one more constraint for each instance variable. Contributions only change delta. With the parameters every satisfying assignment has a proof that the verifier accepts. Too few powers are an error.",
  "every pairing, secrets, constraint system, assignment and randomness of a proof",
  "A test runs one small circuit; a wrong entry of a query matters only for circuits that use the variable.",
  ["manta-trusted-setup/src/groth16/mpc.rs: initialize, specialize_to_phase_2, add_dummy_constraints"])
p("C86", "Poseidon and Merkle paths as circuits",
  "For every choice of witnesses: the circuit of the Poseidon hash can be satisfied and gives the native hash of the values of its inputs; the circuit of an unknown Merkle path says that it is valid exactly if there is a native path of the same form that is accepted; the circuit of a known path agrees with native verification of this path. If the assertion of validity for the root of a list of leaves is satisfied, the leaf is in the list, or it is the default leaf and the tree is not full, or what was hashed for the path and for the tree contains a collision or a preimage of the default digest.",
  "every prime field, parameters of the hash, inputs, height, path, leaf, root, list of leaves and assignment of witnesses",
  "Tests compare one hash and a few honest paths with the native ones; soundness concerns all other witnesses.",
  ["manta-pay/src/crypto/poseidon/mod.rs: Permutation", "manta-pay/src/crypto/poseidon/arkworks.rs: Compiler impls of Field, Specification", "manta-pay/src/crypto/poseidon/hash.rs: Hasher", "manta-crypto/src/merkle_tree/path.rs: constraint::InnerPathVar, PathVar", "manta-crypto/src/merkle_tree/tree.rs: assert_valid", "manta-crypto/src/arkworks/constraint/mod.rs: ConditionalSelect, ConditionalSwap, PartialEq"])
p("C87", "Selection from iterators in parallel",
  "In every interleaving of the tasks, the listener and the consumer, the items returned by SelectAll are those of the iterators, each once and for each iterator in its order; None is returned only when all items have been; no turn of the loop of next panics; and in every pool of threads None is reached: until then something can happen, and the number of steps is bounded.",
  "every number of iterators, items, number of threads and interleaving",
  "Interleavings and the number of threads are outside of the control of a test; the repository has no test of this code.",
  ["manta-util/src/iter/select_all.rs: Task::send_next, SelectAll::spawn, SelectAll::next"])
p("C88", "Sampling for the powers of tau, and fuzzing",
  "The seed of hash_to_group is the first 32 bytes of the digest, each group of four reversed, so equal seeds mean equal first 32 bytes, and a shorter digest panics. A sampled field element is below the modulus and is that of the first block of eight words whose low bits are; each element has the same number of values of the limbs for which it is taken. A sampled point is that of the first draw that gives one which is not zero after the cofactor. Fuzzing changes exactly one bit of a byte, of a big integer and of a field element, and one element of a list, and a fuzzed value is never the value.",
  "every digest, stream of words, modulus, curve and position",
  "Tests compare with one recorded transcript of the ceremony and fuzz a few random values; blocks that are refused, streams and positions are far too many.",
  ["manta-trusted-setup/src/util.rs: hash_to_group", "manta-trusted-setup/src/groth16/ppot/hashing.rs: PpotDistribution", "manta-crypto/src/rand.rs: fuzz"])
p("C89", "Readers and writers for arkworks",
  "A value is decoded exactly when the underlying reader gives all that the deserializer asks for; an error of the reader is reported as an error of the reader, the first one, and the reader is not used after it; an encoding returns the first error of the writer, and success means that the serializer succeeded and that all its bytes were written.",
  "every reader, writer, deserializer and serializer, as programs that continue with what they get",
  "Tests encode into vectors and decode what was encoded; readers and writers that fail or take a part only are not tested.",
  ["manta-crypto/src/arkworks/serialize.rs: ArkReader, ArkWriter", "manta-crypto/src/arkworks/algebra.rs: Decode and Encode for Group", "manta-crypto/src/arkworks/groth16.rs: Decode and Encode for ProvingContext and VerifyingContext", "manta-crypto/src/arkworks/constraint/fp.rs: Decode and Encode for Fp"])
p("C90", "Download, checksums and build of the parameters",
  "A download that succeeds leaves a file with the checksum, whatever the servers answer and whatever was there; a file that is valid is not touched; with good answers every file is repaired. A build that succeeds gives a library that gets the data of every local file and has the checksum of every other one as the checkfile says; a build fails if the hash of a file is another one.",
  "every file, answer, checkfile, set of files and hash function",
  "The tests download the real files into an empty directory; files that are there already, answers that break off and wrong checkfiles are not tested.",
  ["manta-parameters/src/lib.rs: github::download, Download::download_if_invalid, Get::get, verify", "manta-parameters/build.rs: main, validate_and_save_checksum, compile_lfs"])
p("C91", "The checkfile of the parameters",
  "A checkfile that was written for files with their checksums is read back as these, for all paths; whatever is accepted is, line for line, 64 hexadecimal digits, two spaces and a path; a path that is named twice with different checksums is refused.",
  "every text and every list of paths and checksums",
  "The build reads the one checkfile of the repository.",
  ["manta-parameters/build.rs: parse_checkfile", "manta-parameters/generate_checkfile.sh"])
out = os.path.join(os.path.dirname(__file__), "..", "properties.jsonl")
with open(out, "w") as f:
    for x in P:
        f.write(json.dumps(x, ensure_ascii=False) + "\n")
print(len(P))
