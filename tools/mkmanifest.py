"""Writes MANIFEST.json from the claims below."""
import json, os
P, Q, N = "proved", "partial", "not_applicable"
C = []
def c(prop, status, theorems, note=""):
    C.append({"property": prop, "status": status, "theorems": theorems, "note": note})

c("C01", P, ["c01_root_after_pushes", "c02_settled_history_root"])
c("C02", Q, ["c02_batch_equals_pushes_refuted", "c02_batch_equals_pushes_partial", "c02_push_heals", "c02_settled_history_root"],
  "REFUTED in general: a batch with a level starting at a right and ending at a left node loses a node. Proved for all other batches; leaves are always right; the next single push restores the root.")
c("C03", P, ["c03_paths_verify", "c03_verification_sound", "c03_verify_is_spec"],
  "Histories must be settled (see C02). Soundness assumes injective hashes.")
c("C04", P, ["c04_single_path_agrees", "c04_current_path_agrees", "c04_current_path_default_digest_refuted"],
  "Current paths agree if no join yields the default digest; refuted without that hypothesis.")
c("C05", P, ["c05_capacity"])
c("C06", P, ["c06_partial_follows_full", "c06_position_is_provable", "c06_marks_and_prunes_do_not_matter", "c06_unmarked_leaves_verify", "c06_pruned_path_refuted"],
  "The last theorem is a finding beside the property: the proof of a leaf that was given up and pruned is not refused, a path that does not verify is returned.")

c("C10", Q, ["c10_selection_refuted", "c10_selection_partial", "c10_coins_are_stored"],
  "REFUTED in general: the running sum can overflow and panic although the coins cover the request. Proved whenever the coins of the id add up to at most 2^128-1.")
c("C11", P, ["c11_asset_list", "c11_frame", "c11_withdraw_unchecked"])
c("C12", Q, ["c12_withdraw_all_refuted", "c12_withdraw_all_list_refuted", "c12_balances", "c12_withdraw_all_partial"],
  "REFUTED for withdraw_all: a failed bulk withdrawal keeps what it withdrew before failing. Everything else proved.")
c("C13", Q, ["c13_disjoint_refuted", "c13_net_change", "c13_no_growth", "c13_disjoint_partial"],
  "Net change proved for all inputs. Disjointness REFUTED when an id cancels exactly (the next deposit is skipped); proved when no id has equal totals on both sides.")
c("C14", Q, ["c14_assets", "c14_split", "c14_report", "c14_succeeds", "c14_own_request_in_step", "c14_spendable", "c14_overflow_check_refuted", "c14_error_keeps_changes_refuted"],
  "Proved for replies whose end and the signer's checkpoint are ordered in every counter (always so for replies to the signer's own requests; otherwise see C19). REFUTED parts: with overflow checks a sync panics on the nullifier of a committed asset; the error InconsistentBalance leaves the changes in the state and out of every report.")
c("C15", Q, ["c15_success", "c15_error_partial", "c15_recovers", "c15_refuted"],
  "REFUTED: sign and consolidate return the error before the rollback, so coins of joins already built stay in the accumulator when the prover fails, and the next synchronisation commits them. Proved: a success leaves the signer exactly as before; an error leaves assets, nullifiers, checkpoint and committed trees, and everything if it is not the prover's error or at most two coins are spent; a later success restores the signer.")
c("C16", P, ["c16_transfer", "c16_transfer_succeeds", "c16_consolidation", "c16_consolidation_succeeds"],
  "For every synced signer; termination and absence of panics under room in the trees for the coins of the joins and a working prover. Proving, randomness and encryption are parameters; virtual_senders belongs to identity proofs, which are not modelled.")
c("C17", P, ["c17_payment", "c17_payment_succeeds"],
  "For every synced signer. A payment of zero yields no posts.")
c("C18", Q, ["c18_new_refuted", "c18_new_partial", "c18_request"],
  "REFUTED: the first asset may have value zero. Exact characterisation of what is accepted proved.")
c("C19", Q, ["c19_prune_partial", "c19_drops_unseen_refuted", "c19_panics_refuted", "c19_incomparable_refuted", "c19_order_refuted"],
  "REFUTED in general, because checkpoints are compared lexicographically: a reply with unseen notes of a later shard is dropped whole, and incomparable checkpoints or short replies make the subtraction or drain panic; notes of different shards are reordered. Proved (for every batch) when the signer is component-wise at or past the origin and comparable with the end of the reply: exactly the unseen data is kept, in order within each shard, without a panic.")
c("C20", Q, ["c20_sync", "c20_accumulator", "c20_sbt_own_request_partial", "c20_sbt_refuted"],
  "Proved for sync. REFUTED for sbt_sync: the counts are taken before pruning, so items seen before are counted twice; proved for replies to the signer's own requests.")
c("C21", Q, ["c21_estimate_partial", "c21_refuted"],
  "REFUTED for private transfers of zero: signing makes one post, the estimate is 2^64 - 1 or panics with overflow checks. Proved for every other transaction.")
c("C30", P, ["c30_round_trip", "c30_prefix_free", "c30_decode_canonical", "c30_truncation_fails"],
  "bool has no decoder in the code; Option and Result are under C31, the fixed-array reader under C32.")
c("C31", Q, ["c31_round_trip_refuted", "c31_option_never_round_trips", "c31_result_never_round_trips", "c31_some_decodes_to_none"],
  "REFUTED: encoders write tag 0 for None/Ok..., decoders expect the opposite; no value of Option or Result round trips.")
c("C32", Q, ["c32_write_resets_input_refuted", "c32_exact_size_refuted", "c32_write_accounts_partial", "c32_vec_write_never_resets_input", "c32_write_drain", "c32_exact_size_int", "c32_exact_size_parts_panic", "c32_array_reader_repeats"],
  "REFUTED: Vec::write does not advance its input, writing structured values into a fixed buffer of the exact size panics. Positive part: nothing is lost by the other writers.")
c("C33", Q, ["c33_post_encoding_refuted", "c33_post_encoding_partial", "c33_signed_message_injective"],
  "REFUTED: TransferPost's encoding omits sink accounts. The rest of the encoding is injective; the signed message is injective in all it covers.")
c("C47", Q, ["c47_decode_no_panic_refuted", "c47_decode_no_panic_partial", "c47_vec_decode_panics"],
  "REFUTED for vectors (capacity overflow from an untrusted length). Proved for all types without vectors.")
c("C48", P, ["c48_asset_map", "c48_assets"])

c("C38", Q, ["c38_rejected_refuted", "c38_rejected_partial", "c38_single_circuit"],
  "REFUTED: circuits before the invalid one are replaced although the contribution is rejected. Proved: exactly those are, and nothing changes when the first circuit is at fault.")
c("C39", Q, ["c39_once_refuted", "c39_once_partial"],
  "REFUTED: two contributions of one participant in flight together are both applied. Proved for all interleavings in which no participant has two in flight. Cancellation of a request by a dropped connection is not modelled.")
c("C40", P, ["c40_nonces_increase", "c40_no_replay", "c40_wrong_nonce", "c40_after_restart_refuted"],
  "Proved for every interleaving within one run, for signatures that bind the nonce. Across a restart it is refuted.")
c("C41", Q, ["c41_lock_held_refuted", "c41_lock_held_partial"],
  "REFUTED: the lock can expire and pass on while a contribution is verified. Proved when no request arrives past the limit meanwhile.")
c("C42", Q, ["c42_crash_refuted", "c42_crash_partial"],
  "REFUTED: recovery fails when the crash is between writing round_number and the registry. All other crash points proved, for all histories and numbers of circuits.")
c("C43", Q, ["c43_one_place_refuted", "c43_one_place_partial", "c43_levels", "c43_head_first", "c43_position"],
  "REFUTED with high-priority participants (re-enqueued at two levels after a timeout). Proved with normal priorities; order of service, levels and positions proved for all.")
c("C44", Q, ["c44_transcript_refuted", "c44_transcript_partial", "c44_last_circuit"],
  "REFUTED as a consequence of C38. Proved per circuit when every rejection is due to that circuit or an earlier one; always for the last circuit.")
c("C45", P, ["c45_load", "c45_live"])
c("C46", P, ["c46_converges", "c46_exhausted"],
  "For signatures that verify exactly for the nonce they were made for.")

c("C07", Q, ["c07_fork_follows_items", "c07_fork_equals_direct", "c07_fork_equals_direct_settled_later", "c07_merge_equals_direct", "c07_reset_restores", "c07_empty_fork_root_refuted", "c07_height_two_refuted", "c07_unsettled_fork_refuted", "c07_merged_base_root_refuted", "c07_remove_base_leaf_refuted", "c07_mark_lost_refuted", "c07_plain_merge_marks_refuted", "c07_exact_capacity_refuted", "c07_full_merge_refuted"],
  "REFUTED for the empty tree, for HEIGHT 2, and when a batch leaves the inner nodes of the tree unsettled (the batch defect of C02). Proved for every history of any tree of height at least 3: lengths always; roots, current path and proofs when settled and not empty; reset gives back exactly the first fork; merging keeps all items, flags and proofs. Further defects found: removing the proof of a base leaf is lost or panics, merge_fork marks every leaf, branches at exact capacity are refused, merge_fork of an exactly full fork panics.")
c("C08", P, ["c08_rollback_restores", "c08_forest_follows_items", "c08_commit_is_permanent"],
  "The restored forest is equal to the committed one when no prune happened in between; with prunes, lengths, roots and the proofs of all items not given up are equal. Roots after a commit are those of the fork, see C07 for the committed tree below it.")
c("C09", Q, ["c09_only_own_shard", "c09_batch_by_shard", "c09_proof_verifies", "c09_unsettled_proof_refuted"],
  "Isolation and grouping proved for every forest. Proofs verify for every history when the last insertion leaves the shard settled; REFUTED for a batch that does not.")

c("C22", Q, ["c22_no_double_spend_partial", "c22_one_post", "c22_refuted"],
  "REFUTED: nullifiers are equal when their commitments are, but are hashed with the outgoing note, so a second spend of a commitment with another outgoing note is not found in the set. Proved for every history if the hash respects the equality; inside one post proved without condition.")
c("C23", Q, ["c23_verifier_error_partial", "c23_verifier_called", "c23_refuted"],
  "REFUTED: the boolean answer of the verifier is dropped, only its errors reject. Proved: an error rejects and changes nothing; acceptance only after the verifier answered on the input of the post.")
c("C24", Q, ["c24_balances", "c24_rejected", "c24_push_rejected", "c24_set_balance", "c24_overflow_refuted", "c24_push_atomic_refuted"],
  "Proved for all histories when no sink exceeds 128 bits; REFUTED at that bound (wraps in a release build, stops half-way in a debug build). A push of several posts is not undone when a later one fails.")
c("C25", Q, ["c25_signed_sinks_partial", "c25_push_credits_pusher", "c25_refuted"],
  "REFUTED: the simulated ledger credits the account that pushes the post and never reads the signed sink accounts. Proved for a ledger call that passes the signed accounts.")
c("C26", P, ["c26_reader", "c26_complete_after_pull", "c26_pull_is_reply"],
  "The simulated ledger has no limit on a reply, so one pull is complete and says so.")
c("C27", Q, ["c27_initial_read_partial", "c27_refuted"],
  "REFUTED: shard i is read from its i-th note on. Proved: exactly these notes are missing.")
c("C28", Q, ["c28_spendable_partial", "c28_refuted"],
  "REFUTED for a full shard: the failed insertion is ignored. Proved for every history while the shard has room.")
c("C29", P, ["c29_accept_conditions", "c29_accepts", "c29_push"],
  "Both directions, and no panic except an overflow of a sink balance.")

c("C34", Q, ["c34_round_trip", "c34_tag_detected", "c34_change_detected", "c34_single_block", "c34_long_block_refuted", "c34_short_block_panics", "c34_incoming_note", "c34_light_note", "c34_outgoing_note"],
  "Proved for every permutation, width, key, header and number of blocks, with blocks of the size of the rate; also for the three kinds of notes through Diffie-Hellman. A collision is one in the capacity element, or in the tag element at the last step. REFUTED for blocks of another length, which the block type allows: elements beyond the rate are dropped silently.")
c("C49", Q, ["c49_sync_total_partial", "c49_sync_stopped", "c49_nullifier_stopped", "c49_refuted"],
  "REFUTED: plaintext bytes that are no field element meet an expect(), so whoever knows an address can put a note on the ledger that stops every sync of its owner. Proved: this is the only cause, and all other data is read correctly.")
c("C50", Q, ["c50_setup_binding_partial", "c34_change_detected", "c50_padding_refuted"],
  "Proved for keys of one length and headers of one length, as in the configuration. REFUTED in general: zero padding and no separation between key and header.")

c("C35", P, ["c35_header_accepts", "c35_mini_header_accepts", "c35_header_round_trip", "c35_mini_header_round_trip", "c35_header_rejects", "c35_header_canonical", "c35_wrap_unwrap", "c35_dump_parse", "c35_encrypt_decrypt", "c35_mini_wrap_unwrap", "c35_mini_dump_parse", "c35_unwrap_authentic", "c35_mini_unwrap_authentic"],
  "For every byte string and every cipher with the two laws of an authenticated cipher (section hypotheses); lengths that fit memory.")
c("C36", Q, ["c36_thread_fresh_partial", "c36_seeded_reuse", "c36_mini_reuse", "c36_mini_leak", "c36_file_reuse", "c36_file_leak", "c36_refuted", "c36_mini_refuted", "c36_file_refuted"],
  "REFUTED: encrypt clones the seeded generator, so one object, and every block of every file saved with one password, uses one key and one nonce; the stored bytes give away sums of plaintexts. Proved for containers on the thread's generator.")
c("C37", Q, ["c37_round_trip_partial", "c37_lost", "c37_refuted"],
  "Proved for every typed value tree of any size except a unit below options or newtype variants at top level. REFUTED for those: the tag stays in the buffer, save reports success and the file is empty.")
c("C51", Q, ["c51_mini_parse_stops", "c51_mini_unwrap_stops", "c51_parse_stops", "c51_unwrap_stops", "c51_refuted"],
  "REFUTED: the stream readers allocate the unauthenticated length, the slice readers overflow in the length check. Proved: exactly these inputs stop the program.")
c("C52", Q, ["c52_authentic_partial", "c52_swap", "c52_refuted"],
  "REFUTED: blocks are not numbered, so exchanging two of them loads as another value. Proved: a load rests on containers sealed under the key only.")

c("C53", Q, ["c53_reach", "c53_sync", "c53_sync_all", "c53_restart", "c53_succeeds_partial", "c53_check", "c53_checked_is_signed", "c53_panic_refuted", "c53_behind_refuted"],
  "REFUTED twice: normalisation can leave an id on both sides of a report, so that the deposit overflows and the wallet panics; a wallet ahead of its signer lowers its checkpoint but keeps its balances, and the next sync counts notes twice (a restart repairs it). Proved: the balances for every execution in which the wallet is not ahead; success while old and new totals fit 128 bits together.")
c("C54", Q, ["c54_accepted_partial", "c54_refuted"],
  "REFUTED for payments of several posts: all posts prove membership against the roots before the payment, so when the change of one post lands in the shard of a coin that a later post spends, the ledger rejects the later post after having executed the earlier one. Proved: acceptance and exact effect for deposits, transfers, consolidations, and payments whose change stays out of those shards. Signatures and proofs are assumed complete, identifiers fresh.")
c("C55", P, ["c55_step", "c55_session"],
  "For requests that C54 covers, values in range, trees with room, and receivers of transfers that are not the signer itself.")

c("C56", Q, ["c56_full_extend_partial", "c56_single_extend_partial", "c56_partial_extend_partial", "c56_from_iter_partial", "c56_exact_capacity_refuted", "c56_loose_bound_refuted"],
  "REFUTED: an extension that fills the tree exactly panics (the tree is tested for room before the iterator is asked for a digest), so from_slice of exactly as many leaves as the tree holds panics for each kind of tree, as does an empty extension of a full tree; an iterator whose size hint is loose is refused though its digests fit. Proved: the exact outcome (refused without effect, taken as the same pushes, panic) for every reachable tree and every iterator that keeps its size hint.")
c("C57", Q, ["c57_follows_reference", "c57_merge_detaches", "c57_attach_refuted", "c57_with_leaves_refuted", "c57_full_merge_refuted"],
  "REFUTED: attaching counts the leaves that the fork holds of its old trunk a second time and refuses forks that fit; with_leaves refuses leaves that fill the tree exactly; merging a fork that fills the tree exactly panics. Proved: everything else of the statement for every program, as refinement of a reference with version numbers and lists of leaves. Partial trees as bases, Rc or Arc pointers, one call at a time.")

c("C58", P, ["c58_sound", "c58_complete", "c58_zero_asset"],
  "The constraints as a boolean function of the assignment; gadgets of hashes, group and encryption are taken to compute the native functions, except the viewing key, which the circuit does not reduce. Completeness for asset ids other than zero, which c58_zero_asset shows to be necessary.")
c("C59", Q, ["c59_no_inflation", "c59_unchecked_refuted"],
  "REFUTED: the simulated ledger drops the boolean of the proof verifier and only looks at its errors, so a post with a proof that does not verify pays out what nobody paid in. Proved: conservation for every history whose landed posts have proofs that verify. Hypotheses: knowledge soundness of the proof system, hashes and commitments without collisions, one authorization key per receiving key.")
c("C60", Q, ["c60_sound_partial", "c60_complete", "c60_no_replay_partial", "c60_forgery_refuted", "c60_replay_refuted"],
  "REFUTED twice. A sender of nothing may claim any accumulator output, so anybody who knows the virtual asset makes an identity proof that verifies for somebody else's address. And a virtual asset which is a real note, the only one of its shard, makes an identity proof that the ledger accepts as a withdrawal to the account of the verifier. Proved: soundness if the post pays out something and has no outputs but those of the virtual asset and the default, which honest proofs meet (c60_complete); a reachable ledger accepts the post only if the virtual utxo is the only one of its shard. Hypotheses: an extractor for the proof system, hashes and commitments without collisions.")

c("C61", P, ["c61_honest", "c61_honest_total", "c61_sound", "c61_not_lucky", "c61_never_panics", "c61_chain"],
  "For prime-order groups with a non-degenerate pairing. A draw is called lucky when at one index every other scalar is rejected, so that one draw in as many as the field has elements is; c61_not_lucky shows that right contributions are never called so. That the points are in the prime-order groups is checked by the coordinator (check_state) and not by the verifier program.")
c("C62", Q, ["c62_bound_partial", "c62_empty_proof", "c62_erase", "c62_knowledge_refuted"],
  "REFUTED: a ratio proof of points at infinity passes with every right change of the state, and decoding a phase-two proof does not exclude it (phase one does), so no knowledge is needed; the last participant can put back the key with which the chain began and erase everybody's secrets. Proved: with a first point other than infinity the factor of the proof is the factor of the state and was applied to the hash of the challenge. That this shows knowledge is the assumption behind the ratio proof and is not expressed.")
c("C63", Q, ["c63_complete", "c63_sound", "c63_agree_refuted"],
  "REFUTED: a wrong point in a state in the middle that is put right later is accepted at once and rejected step by step. Proved: what is accepted step by step without a lucky draw is accepted at once for every draw, and what is accepted at once ends in a right state or a lucky draw.")
c("C64", P, ["c64_default", "c64_update", "c64_honest", "c64_sound", "c64_no_panic"],
  "For prime-order groups with a non-degenerate pairing, after an accumulator of powers whose beta is not zero. Lucky draws as in C61.")
c("C65", Q, ["c65_bound", "c65_chain", "c65_zero", "c65_unchecked_refuted"],
  "REFUTED for the check alone: an accumulator of zeroes is accepted after any other with a proof of points at infinity. Proved when no point of the proofs is at infinity, which decoding a proof ensures: the factors are those of the proofs and not zero, for chains of any length, unless a draw was lucky.")

c("C66", P, ["c66_correct", "c66_none", "c66_complete", "c66_no_panic", "c66_empty_panics"],
  "For matrices with a row; the empty matrix panics (c66_empty_panics).")
c("C67", Q, ["c67_square_partial", "c67_outer_partial", "c67_col_partial", "c67_row_partial", "c67_matmul_refuted", "c67_col_refuted", "c67_row_refuted"],
  "REFUTED for shapes that are not square: matmul compares the rows of the first with the columns of the second factor, so it refuses 2x3 by 3x1 and takes 2x2 by 3x2; mul_col_vec compares the vector with the rows, and a row times a 2x3 matrix has two elements. Proved: square matrices of any size, and p x q by q x p. Poseidon uses square matrices only.")
c("C68", Q, ["c68_derive", "c68_product_partial", "c68_factor_partial", "c68_sparse", "c68_product_refuted", "c68_factor_refuted"],
  "REFUTED when the tail is not symmetric: make_double_prime multiplies a row where a column is needed. Proved for every matrix whose tail is symmetric, as that of the generated matrix is (C70).")
c("C69", Q, ["c69_compress_partial", "c69_optimized_partial", "c69_no_full_rounds", "c69_refuted"],
  "REFUTED when the matrix is not symmetric: the constants are moved through the inverse as rows while the permutation multiplies columns. Proved for symmetric matrices, such as the generated ones (C70). The permutation with compressed constants is a specification; the code has the constants only.")
c("C70", P, ["c70_mds", "c70_total", "c70_width_one"],
  "Width one panics (c70_width_one), and so does a width too large for the field (c70_small_field).")
c("C71", P, ["c71_bijective", "c71_hash", "c71_injective", "c71_power"],
  "Native computation; the S-box is any bijection, and c71_power covers powers with an inverse exponent.")

c("C72", Q, ["c72_register", "c72_stream", "c72_next_returns", "c72_next_zero", "c72_distinct", "c72_distinct_refuted", "c72_sample_partial", "c72_round_constants_partial"],
  "generate_lfsr does not check that its parameters fit the fields of the seed, so width 4099 has the generator of width 3 (c72_distinct_refuted; parameters that fit are told apart). That some block is below the modulus is not proved: the sampling theorems describe what is returned when it is.")
c("C73", P, ["c73_field", "c73_sbox", "c73_cube_collides", "c73_permutation", "c73_hash"],
  "The order of the field is that of ark-bn254, which is outside the repository. c73_cube_collides records that the third power would not be one to one.")

c("C74", Q, ["c74_complete", "c74_unique", "c74_nonce_reuse", "c74_zero_key", "c74_protocol", "c74_authorization", "c74_from_spending_key", "c74_sign", "c74_sign_refuted", "c74_subgroup_refuted"],
  "The signature of an authorization with randomness zero, of the spending key zero or with a hash of zero is refused (c74_sign gives the exact condition, c74_sign_refuted a witness). Verification alone does not test that the key lies in the subgroup (c74_subgroup_refuted).")
c("C75", Q, ["c75_keys", "c75_fresh", "c75_loaded_refuted"],
  "True of contexts made from a spending key. A context that was loaded from outside keeps its cached keys, and the check against the spending key does not look at them (c75_loaded_refuted).")
c("C76", Q, ["c76_into_post", "c76_refuses", "c76_valid", "c76_accounts_refuted"],
  "When sink accounts are given for a shape without sinks they are signed and then dropped, and the signature of the post is refused (c76_accounts_refuted); zero keys, randomness and hashes are excluded as in C74.")

c("C77", Q, ["c77_any_post", "c77_batched", "c77_signed", "c77_signer", "c77_context_refuted"],
  "All but the last sentence. Signing with data needs an authorization context in the signer also for transactions that are signed without one (c77_context_refuted); with a context it succeeds exactly when signing does (c77_signer).")

c("C78", Q, ["c78_initial_sync", "c78_pages", "c78_wallet", "c78_assets", "c78_same_as_sync", "c78_report", "c78_succeeds", "c78_spendable", "c78_simulation_read_refuted", "c78_old_notes_refuted", "c78_old_proof_refuted"],
  "All but the last sentence. The simulation's ledger leaves out the first notes of every shard but the first (C27), and the signer ends with another tree and an older checkpoint than the ledger (c78_simulation_read_refuted). The proof of a stored note is valid if its item occurs once in its shard. That the keys are new is needed: earlier notes are never stored, and their proofs do not verify (c78_old_notes_refuted, c78_old_proof_refuted; the code documents this).")

c("C79", Q, ["c79_roundtrip", "c79_format", "c79_injective", "c79_injective2", "c79_sound", "c79_decode", "c79_decode_uncompressed", "c79_unique_refuted", "c79_infinity_refuted", "c79_truncated_refuted", "c79_chunks_refuted", "c79_subgroup_refuted"],
  "All but the last sentence, and reading determines the number for the first group only (c79_decode, c79_decode_uncompressed). Coordinates may be written unreduced (c79_unique_refuted, for BN254) and infinity with the sign (c79_infinity_refuted), so points have several encodings. The number of bytes read is ignored: missing bytes count as zeros (c79_truncated_refuted) and a reader that gives its bytes in parts is misread (c79_chunks_refuted). The compressed form is read without a check of the subgroup (c79_subgroup_refuted), as its comment says. Square roots and the subgroup tests are parameters.")

c("C80", Q, ["c80_layout", "c80_read", "c80_sound", "c80_wrong_curve", "c80_proof", "c80_proof_sound", "c80_panic_refuted", "c80_size_refuted"],
  "All but the last sentence: points off the curve in an uncompressed file and short files panic (c80_panic_refuted), and for a size larger than the file's the bytes of the next parts are read as further powers (c80_size_refuted).")

c("C81", Q, ["c81_accumulator", "c81_accumulator_sound", "c81_proof", "c81_proof_sound", "c81_subgroup_refuted"],
  "All but that compressed accumulators and proofs are accepted with points outside of the subgroup (c81_subgroup_refuted).")

c("C82", Q, ["c82_path", "c82_path_injective", "c82_spending_key", "c82_range_refuted", "c82_range", "c82_create", "c82_create_total", "c82_exists", "c82_write", "c82_default", "c82_same", "c82_accounts_refuted", "c82_account_keys", "c82_own"],
  "All but two sentences: for an index of 2^31 or more the path is not accepted and the key panics (c82_range_refuted); and the entry of a new account is the default index, so all accounts of a table have the keys and the address of the index 0 (c82_same, c82_accounts_refuted).")

c("C83", Q, ["c83_select", "c83_select_total", "c83_select_order_refuted", "c83_window", "c83_window_total", "c83_scalar_mul", "c83_unchecked", "c83_odd", "c83_bases", "c83_fixed_base", "c83_var", "c83_agree", "c83_fixed_base_refuted", "c83_reduce"],
  "All but: the first bit of a selection is the least significant one, while the documentation says the opposite (c83_select_order_refuted); and a table of precomputed bases as long as the order of the group cuts off the high bits of larger scalars, which a variable of a circuit may have (c83_fixed_base_refuted).")

c("C84", Q, ["c84_range", "c84_range_total", "c84_allocate", "c84_add", "c84_sum", "c84_sum_total", "c84_add_refuted", "c84_mul", "c84_mul_refuted", "c84_names", "c84_names_refuted", "c84_select", "c84_swap", "c84_smaller", "c84_lift", "c84_native", "c84_rem_complete", "c84_rem_range", "c84_rem_any", "c84_rem_refuted", "c84_rem_large"],
  "All but: sums of 253 bits and products of 128 bits in the field of BN254 are reduced by the modulus (c84_add_refuted, c84_mul_refuted; neither is used by the transfer circuit, whose values have 128 bits), the type U110 has 100 bits (c84_names_refuted), and the remainder gadget accepts every number below the modulus as remainder of every value (c84_rem_any, c84_rem_refuted; the gadget is not used by the transfer circuit).")

c("C85", Q, ["c85_initialize", "c85_interpolation", "c85_errors", "c85_variables", "c85_contribution", "c85_complete", "c85_panic", "c85_powers_refuted", "c85_short_refuted"],
  "All but the sizes: the code asks for 2 n powers in the first group, so it panics for a system whose domain has the size of the powers in the second group, although the 2 n - 1 powers that exist are enough (c85_powers_refuted, c85_complete); and with fewer powers in the second group than the domain has it returns wrong parameters without an error (c85_short_refuted; not possible with the 2 n - 1 powers of the ceremonies).")

c("C86", Q, ["c86_power", "c86_hash", "c86_join", "c86_equal", "c86_verify", "c86_known", "c86_assert", "c86_membership", "c86_length_refuted"],
  "All but known paths with more digests than the tree has levels: the circuit ignores the digests that are too many, native verification uses them (c86_length_refuted).")

c("C87", Q, ["c87_drop", "c87_order", "c87_complete", "c87_no_panic", "c87_live", "c87_finite", "c87_pool", "c87_delivered", "c87_threads_refuted"],
  "All but small pools: the listener and a consumer that runs in the pool each block a thread, so with fewer than two threads beside the consumer's there is a deadlock (c87_threads_refuted); with more there is none (c87_live, c87_delivered). Nothing else in the repository uses this iterator.")

c("C88", Q, ["c88_seed", "c88_seed_same", "c88_field", "c88_field_found", "c88_uniform", "c88_point", "c88_point_good", "c88_fuzz_list", "c88_fuzz_u8", "c88_fuzz_big", "c88_fuzz_field", "c88_fuzz_bit_refuted"],
  "All but one bit of field elements: since the result is reduced, more than one bit of a field element can change (c88_fuzz_bit_refuted), although the documentation says one bit; the element is always a different one (c88_fuzz_field). An element is found when a block that is accepted comes (c88_field_found); that one comes depends on the words of the generator.")

c("C89", Q, ["c89_after", "c89_finish", "c89_decode_any", "c89_decode", "c89_read_error_lost", "c89_encode_error", "c89_encode", "c89_vec", "c89_read_error_refuted", "c89_short_refuted", "c89_serializer_error_refuted"],
  "All but three cases. Decoding replaces every error of the reader by an error of decoding, since the result of the deserializer is looked at first (c89_read_error_lost, c89_read_error_refuted). write_all is one call of write whose number is dropped, so with a writer that takes a part, as an array, bytes are lost without an error (c89_short_refuted); for vectors and files c89_encode holds. An error of the serializer itself is dropped by encode (c89_serializer_error_refuted).")

c("C90", Q, ["c90_download", "c90_if_invalid", "c90_broken", "c90_good", "c90_stuck", "c90_get", "c90_build", "c90_build_lfs", "c90_build_wrong", "c90_repair_refuted", "c90_stem_refuted"],
  "All but two cases. The file is opened without truncation, so a file that is too long and not valid keeps its end: download_if_invalid fails however often it is called with good answers (c90_stuck, c90_repair_refuted). A local file and a file of the LFS with the same stem share the file of the checksum, so that a build that succeeds can give a library that refuses its own data (c90_stem_refuted; the repository has no such files).")

c("C91", Q, ["c91_round_trip", "c91_open_end", "c91_sound", "c91_double_refuted", "c91_spaces_refuted"],
  "All but two cases: of two lines for the same path the last one counts, without an error (c91_double_refuted), and a path with two spaces cannot be read (c91_spaces_refuted); a path that ends with a carriage return or has a line feed is excluded from c91_round_trip as well.")
out = os.path.join(os.path.dirname(os.path.abspath(__file__)), "..", "MANIFEST.json")
json.dump({"claims": C}, open(out, "w"), indent=1)
