# Design of the formal model of manta-rs

Everything lives in `rocq/theories` (logical name `Verif`). The code in `/repo` is read as text; nothing is
built or run from it. Each model definition cites the Rust file and lines it follows.

## Layout

| file | contents |
|---|---|
| `*Model.v` | executable Gallina transcription of the Rust functions, no proofs |
| `*Spec.v` | small independent specification used in the theorem statements |
| `*Props.v` | the property theorems with `Print Assumptions` and non-vacuity `Example`s |
| `*Inst.v` | small executable instances of the abstract cryptography, used to run the model |
| others | lemmas and invariants |

| area | models | properties |
|---|---|---|
| `Mt*` | Merkle trees: nodes, inner tree, paths, full and single-path trees | C01-C05 |
| `Pt*`, `Fk*`, `Fo*` | partial trees with pruning (C06), forked trees (C07), forests (C08, C09) | C06-C09 |
| `Ex*`, `Tk*` | extension by iterators, trunks and forks | C56, C57 |
| `Asset*` | asset lists and maps, coin selection, balances, normalisation, consolidation | C10-C13, C18, C48 |
| `Ck*`, `Sg*` | checkpoints, pruning of replies, synchronisation of the signer | C14, C19, C20 |
| `Sn*` | signing: joins, final senders, to-public and private posts, estimates | C15-C17, C21 |
| `Wa*` | the wallet around the signer: balances, checkpoints, restart, balance check | C53 |
| `Ee*` | from the signer to the ledger and back: posts as the ledger sees them, sessions | C54, C55 |
| `Lg*` | validation and posting of transfers, simulated ledger, ledger reads | C22-C29 |
| `Ci*` | validity constraints of transfers, conservation of the private pool | C58, C59 |
| `Id*` | identity proofs | C60 |
| `Codec*` | byte readers, writers, encoders and decoders, transfer post encodings | C30-C33, C47 |
| `Dx*` | duplex sponge, note encryption, converters, opening of notes | C34, C49, C50 |
| `Co*` | encrypted containers (the vendored `cocoon` crate) | C35, C36, C51 |
| `Fs*` | encrypted files with their serde format | C36, C37, C52 |
| `Cer*` | trusted-setup ceremony server as a transition system, disk and recovery | C38-C46 |
| `AlgBase` | fields, groups with scalars and pairings as records of operations and laws; the field with 17 elements | |
| `Mp*` | contributions to a Groth16 key (phase two of the setup) | C61-C63 |
| `Kz*` | powers of tau (phase one of the setup) | C64, C65 |
| `Px*` | Poseidon: matrices, their generation and factorization, compressed constants, the permutation and the hash | C66-C71 |
| `Lf*` | the generator of Poseidon's round constants | C72 |
| `Pr*` | primality certificates, fields of prime order, BN254 and the configured Poseidon | C73 |
| `Au*` | authorization: keys, Schnorr signatures, the signature of a post | C74-C76 |
| `Td*` | data of transactions: reading posts back, signing with data | C77 |
| `Is*` | initial synchronisation of signer and wallet | C78 |
| `Ps*` | Perpetual Powers of Tau: encoding of points, files, accumulators and proofs | C79-C81 |
| `Ky*` | account map and table, paths of keys | C82 |
| `Wm*` | selection from tables, windowed and fixed-base multiplication | C83 |
| `Gd*` | circuits run on a tape of witnesses: ranges, unsigned integers, selection, remainder | C84 |
| `It*` | start of phase 2: Groth16 parameters from powers of tau | C85 |
| `Pc*` | Poseidon and Merkle paths as circuits, down to constraints | C86 |
| `Sa*` | selection from iterators in parallel: tasks, listener and consumer as a transition system | C87 |
| `Fz*` | sampling for the powers of tau from words of a generator, the seed of `hash_to_group`, fuzzing | C88 |
| `Ak*` | readers and writers for arkworks, (de)serializers as programs that continue with what they get | C89 |
| `Dl*` | download and checksums of parameters, the build script | C90 |
| `Cf*` | the checkfile of the parameters | C91 |

## Conventions

* A Rust panic (index out of range, `unwrap`, `expect`, overflow in a checked build, capacity overflow) is an
  explicit value of the result type, distinct from an `Err`.
* Sizes and indices are `nat`, or `N` where bytes or overflow matter. `usize` is 64 bits wide. Overflow of tree
  indices is not modelled (a tree of height at most 64 does not reach it); overflow that input can reach is
  (values, sums, estimates, index subtraction, container lengths). Where a checked and an unchecked build
  differ, a flag of the model or an extra theorem says what happens in each.
* Cryptography and other external code are Section variables, so the theorems quantify over them. What is
  needed of them is a hypothesis in the statement of the theorem, and an instance that meets it is exhibited
  beside the theorem.
* A property which the faithful model violates is answered by a theorem `..._refuted : exists x, ...` with a
  concrete witness, together with the strongest correct version found. Such a claim has the status `partial`
  in the manifest, and its note starts with or contains the word REFUTED.
* A theorem with the suffix `_partial` proves part of a property; its comment and the manifest say what is
  missing.

## What is modelled and how it is proved

| id | model | proof |
|---|---|---|
| C01 | `InnerTree` as a finite map from map-index to digest, `Full` push | invariant: every node on or left of the current path holds its specification digest; induction over pushes |
| C02 | `NodeRange::join_leaves`, `insert_range_and_join`, batch push | refutation witness (start odd/end even at an inner level); positive theorem when no level has that shape; healing theorem |
| C03 | `path`, `InnerPath::fold`, `verify_path` | invariant of C01 gives the siblings; soundness by injectivity, induction over the path |
| C04 | `CurrentInnerPath::update`, `SinglePath` | simulation relation with the full tree specification |
| C05 | push/batch push | case analysis and invariant |
| C06 | `Partial` with `LeafBTreeMap`, prune | invariant: what is missing belongs to given-up, non-current leaves; simulation with an unpruned tree |
| C07 | `ForkedTree`, `Branch`, `from_current` | simulation: branch represents base ++ pushed, as a partial tree whose first leaves were removed |
| C08 | forest of forked trees, rollback/commit | per shard, from C07 |
| C09 | forest insert, grouping by shard | pointwise |
| C10 | `AssetMap::select` | loop invariant over the iteration |
| C11 | `AssetList` over sorted vectors, binary search as specified by std | invariant preservation, functional specification |
| C12 | balance states | functional specification; refutation for `withdraw_all` atomicity |
| C13 | `normalize_assets` loop | net-change invariant; refutation for disjointness |
| C14 | `sync_with` and what it calls | invariant assets = unspent notes over histories of syncs |
| C15 | `sign` over the rollback accumulator | refutation; success and `rollback` theorems |
| C16 | join rounds | conservation invariant, termination measure |
| C17 | to-public loop | running remainder invariant |
| C18 | `ConsolidationRequest::new` | refutation and exact characterisation |
| C19 | `Checkpoint::prune` | positive on componentwise ordered reads; refutations (panic, data loss) |
| C20 | `sync`, `sbt_sync` checkpoints | positive for `sync`; refutation for `sbt_sync` |
| C21 | estimate and build | equality on non-empty selections; refutation on empty ones |
| C22 | ledger nullifier set as a set indexed by hash | proved when equality implies equal hash; refuted for the derived hash |
| C23 | `is_valid` | refutation; the error outcome is rejected |
| C24 | posting | frame and supply equation over histories |
| C25 | push with account argument | refutation and guarded version |
| C26 | pull | concatenation theorem over arbitrary interleavings |
| C27 | `initial_read` | refutation; exact set of missing notes |
| C28 | registering on a full shard | refutation; version with room |
| C29 | `validate` | exact characterisation |
| C30-C33, C47 | byte codec | round trips and prefix-freeness over a universe of types; refutations for Option, Result, fixed buffers, vectors, TransferPost |
| C48 | asset map | functional specification of every operation |
| C34, C50 | duplex sponge | induction over blocks, any permutation |
| C35, C51 | container readers and writers | exact characterisation of accepted headers; round trips; exact characterisation of the inputs that stop the reader |
| C36 | generators cloned by `encrypt` | reuse theorem for all data; leak through the keystream; positive for the thread's generator |
| C37 | block serializer and deserializer | stream invariant of the serializer, induction over value trees |
| C38-C46 | ceremony server as a labelled transition system whose steps are the critical sections | invariants over all interleavings; witness schedules for refutations; crash points as prefixes of the write list |
| C49 | opening of notes in a sync | exact cause of a stop; witness |
| C52 | loading of files | locality of the deserializer: every byte used comes from a container that opened; witness by exchanging blocks |
| C53 | wallet calls around `sync` and `sign` | invariant over executions: at or behind the signer, equal balances when not behind; two witnesses |
| C54 | posts of `sign` and `consolidate` pushed to the simulated ledger | every sender's root is the current root of its shard when its post is checked; induction over the posts; witness for payments |
| C55 | push, pull and sync in turn | the reply grows the synchronised ledger; value flow of the posts; induction over sessions |
| C56 | `extend_digests` over the three trees | loop invariant over any tree whose push is described; witnesses at the exact capacity |
| C57 | trunks, forks and allocations as a store with fresh names | refinement of a store of lists with version numbers; each fork carries the tree it was made from as a ghost |
| C58 | constraint system as a function of the assignment to a boolean | inversion of the conjunction; field sums are sums of numbers by the ranges; a path that climbs to a root ends in a leaf |
| C59 | the ledger of C22-C29 with proofs about assignments of C58 | invariant over histories with ghost lists of minted and spent notes; every spent note was minted and is spent once |
| C60 | verification and the virtual withdrawal, with the forest of C08 | forest with one item; trees with one leaf by injectivity; witnesses in an instance whose proofs are assignments |
| C61 | phase-two state, `contribute`, `verify_transform`, over any pairing | the pairing equations are equations of scalars; two draws that differ at one index separate two lists of points |
| C62 | ratio proof | points at infinity satisfy every pairing equation; witness over the field with 17 elements |
| C63 | `verify_transform_all` | the proofs of the steps and one change from first to last; witness |
| C64 | accumulator, `update`, `verify_transform`, `power_pairs` | geometric lists; the combination test of C61 for each list |
| C65 | proofs with and without points at infinity | the factor of the proof in the first group is the factor of the accumulator; induction over chains |
| C66 | matrices as lists of rows, elimination with the shadow matrix | augmented rows keep a linear relation; a triangular matrix is solved from below; a column without pivot gives a vector in the kernel |
| C67 | products with the dimension tests of the code | sums; witnesses of 2x3 shapes over the field with 17 elements |
| C68 | derived matrices, sparse matrices, `factor_to_sparse_matrixes` | the first factor commutes with functions of the first element; induction over the factors; witnesses |
| C69 | `compress_round_constants`, `permute` | constants move through the inverse matrix from the last partial round to the first; the matrices as in C68 |
| C70 | `generate_mds` | a Cauchy matrix: elimination of one row and column, induction over the size of the submatrix |
| C71 | rounds, permutation, hash | each round is a composition of bijections |
| C72 | circular buffer, updates, iterator, rejection sampling | refinement to a sequence with the recurrence; the first eighty bits are sums of every second of the next 160, by a computed inverse matrix |
| C73 | instances of C70, C71 | Pocklington's test with certified quotients for the order of the field; Fermat's theorem for the S-box |
| C74 | Schnorr signatures and authorizations over a curve with a cofactor | equations of multiples of the generator |
| C75 | contexts with their caches | invariant of the caches over sequences of uses; witness with caches from outside |
| C76 | `into_post` and the check of its signature | case analysis with C74; witness |
| C77 | `transaction_data`, `batched_transaction_data`, `sign_with_transaction_data` | any post by cases on its shape; signed posts by the shape of what signing makes (C16) |
| C78 | `initial_sync` of wallet and signer, trees rebuilt from leaves and one path | the rebuilt tree agrees with the full tree on what the last leaf and later ones need, an invariant weaker than that of C14 which syncs keep; the loop by the number of notes left |
| C79 | `PpotSerializer` over any curve with a coordinate codec; instances over a prime field and its quadratic extension | laws of a codec (reading inverts writing, order total on a root and its negation) give round trip and soundness for both groups; numbers of byte lists; -1 is no square as q is 3 modulo 4 |
| C80 | positions in the file, `read_g1_powers`, `read_g2_powers`, `read_subaccumulator`, `read_kzg_proof` | offsets of the parts; induction over the loop with the rest of the file; the length of the powers is a parameter |
| C81 | serialisation of `Accumulator` and `Proof`, `NonZero` | the readers compose: each leaves the rest of the input |
| C82 | `VecAccountMap`, `AccountTable`, `path_string`, `xpr_secret_key` | decimal numerals are parsed back; induction over the creations of accounts |
| C83 | `Window`, `PrecomputedBaseTable`, `select_from_table`, `fixed_base_scalar_mul` | invariant of the rounds: the result is the multiple by the bits read so far |
| C84 | `assert_within_range`, `UnsignedInteger`, `select`, `swap`, `Rem`, `modulus_is_smaller` | inversion of a satisfied run for all tapes of witnesses; honest tapes for completeness |
| C85 | `initialize`, `specialize_to_phase_2`, `add_dummy_constraints` | orthogonality of roots of unity gives Lagrange interpolation in the exponent; division by X^n - 1 for completeness |
| C86 | `hash_var`, `allocate_path`, `verify_var`, `assert_valid_var` | a circuit `always` has a property if it can be satisfied and every satisfying assignment gives it; composition of such circuits; descent from the root along the path |
| C87 | `send_next`, `spawned`, `poll`, `exec` | inductive invariant of the transition system; a measure that every step decreases; case analysis for progress |
| C88 | `seed_of`, `sample_fq`, `sample_point`, `fuzz_u8`, `fuzz_big`, `fuzz_field` | induction on the turns; arithmetic of masks and limbs; comparison of bits; an odd modulus does not divide a power of two |
| C89 | `update`, `ark_read`, `ark_read_exact`, `ark_write`, `ark_write_all`, `decode`, `encode` | induction on programs against relations on the underlying reader and writer |
| C90 | `download`, `download_if_invalid`, `build`, `get` | case analysis; induction on attempts and on files |
| C91 | `lines`, `split`, `checksum_of`, `parse_checkfile` | induction on text; the specification writes the file |

## Not modelled

* Merkle trees: `usize` wrap-around; the hash-map variant of the inner map beyond its get/set/remove contract;
  serialisation of trees; the pointer family `NoPointer`, trunks over trees that are not partial, and concurrent use of
  one trunk through `Arc`.
* Accounting: key derivation, addresses and viewing keys; contents of posts other than assets, identifiers,
  accounts and membership proofs; the wallet front end's network layer; `sbt_sync`
  of the wallet.
* Accounts: the parser of paths is that of the crate `bip32`, transcribed by its documentation; its derivation is a
  parameter. Mnemonics.
* Multiplication: a variable is its value; `scalar_mul_le` of arkworks by its contract. Tables larger than the memory.
* `initialize` (C85): the synthesis and `to_matrices` are an input; `Radix2EvaluationDomain::new` and `ifft` of arkworks by
  their contracts (`root_of_order`). The prover and verifier of Groth16 are those of `ItSpec.v`, not of the code; knowledge
  soundness of Groth16 is not claimed.
* Circuits of hashes and paths (C86): `FpVar` and `Boolean` of arkworks (product, `pow_by_constant`, `is_eq`, selection) are
  written down with the witnesses and constraints of r1cs-std 0.3; that a constraint system contains exactly these is trusted.
* Parallel selection (C87): channels of crossbeam and jobs of rayon by their contracts; a consumer that drops the iterator
  before its end; panics of the iterators.
* Sampling and fuzzing (C88): a generator is the list of the words it will give, and the loops have a bound on their turns;
  a field element is found if an accepted block comes (`c88_field_found`), that one comes is not proved; ChaCha20, `gen_range`, and the functions of arkworks for points (coordinates to points, cofactor,
  zero) are parameters or not modelled; `div_rem` is taken as the remainder. A sampled element is its Montgomery representation.
* Readers and writers for arkworks (C89): the (de)serializers of arkworks are any programs, those for decoding assumed to end
  with an error when a read does (`strict`); that arkworks' own are so is not proved. Panics of the readers and writers of
  `manta-util` are errors here.
* Parameters (C90): BLAKE3 is any function; answers of servers are bytes and whether they were complete; opening and reading a
  file is assumed to succeed; URLs, hidden and ignored files are not modelled. The checkfile (C91) is a list of
  bytes; UTF-8 and the escapes that `b3sum` writes for unusual names are not modelled.
* Gadgets (C84): arkworks' `to_bits_le` is modelled with its witnesses, its comparison with the modulus and `enforce_cmp`
  by their contracts; one witness is one value of the tape; constants are treated as variables. `UnsignedInteger::mul` has
  no instance for `FpVar` in the repository.
* Constraints: synthesis to R1CS and the gadgets of hashes, group, bits and encryption (each is taken to compute its
  native function; a comparison is taken to decide equality); the setup of the proof system; that header and light
  notes are not constrained is part of the model.
* Signer: the key is fixed; encryption randomness in nullifiers (equality looks at the commitment only).
* Ledger: test-only unchecked inserts, serialisation, the lock around the ledger and the HTTP connection.
* Codec: `IoReader` over a source that returns everything it has and then reports the end.
* Note encryption: only the native compiler `()`; field, permutation, group, AES-GCM and key hash are
  parameters.
* Containers: PBKDF2, ChaCha20-Poly1305, AES-256-GCM and the generators are parameters; zeroisation;
  I/O errors other than the end of the input; `Vec::with_capacity(n)` has capacity exactly `n`.
* Files: opening files and the operating system; iterators of unknown length; a file is its list of bytes.
* Authorization: the hash, the curve and the encoding of messages are parameters; draws are arguments. The laws of the
  curve are assumed for multiples of the generator only.
* Setup: curve arithmetic, the hash into the second group, the challenge, sampling and encodings are parameters or left
  out; the groups are assumed to be of prime order with a non-degenerate pairing (`check_state` of the coordinator
  tests this for decoded points, the program `groth16_phase2_verifier` does not); `initialize` and
  `specialize_to_phase_2`. Random scalars of the verifier are arguments of the model.
* Powers of tau files: arkworks' square roots (contract `sqrt1_ok`, `sqrt2_ok`: a root if there is one), its subgroup
  tests (a parameter), `from_be_bytes_mod_order` as reduction of the number; the encoding by arkworks in `response`
  (`ArkworksSerialization`) and the hashers of the ceremony; with the feature "rayon" which of several errors is returned.
  The base field of BN254 is shown to be prime and 3 modulo 4 (`bnq_good`). The errors `ExtraYCoordinate` and
  `ExpectedCompressed` are never returned (`c79_decode`).
* Poseidon: the circuit version of the permutation; `is_symmetric`, construction of matrices with checks of shape; the
  domain tags (an argument). Outside of the build the model was run over BLS12-381 (with its order proved prime in the
  same way) and gave the values of the repository's own vectors: all 189 of `lfsr_values`, `mds_hardcoded_tests/width3`
  and `permutation_hardcoded_test/width3`; the first four of `lfsr_values` are `c72_vectors`.
* Ceremony: requests cancelled when a connection drops; that `save_registry` opens its file
  without truncating it (the model writes whole files); HTTP. Each critical section is one step.

## Disagreements found between the code and what a user would expect

These are the `_refuted` theorems; the note of each claim in `MANIFEST.json` says in one sentence what goes wrong.
Observations without a property of their own:

* `TransferPost::encode` omits the sink accounts (C33); they are covered by the signature only.
* `FullNullifier` enters the proof input as its commitment only, so an outgoing note can be replaced without
  invalidating the proof (the signature covers it).
* `cocoon::File::read` reports the end of a file as the error `TooShort`, never as `None`.
* `File::load` does not look at what follows the value in the file.
* `groth16_phase2_verifier` decodes states without the checks of the curve and of the subgroup.
* The nonce of the fixed-nonce AES notes is constant; safety rests on the freshness of the ephemeral key.

## Corrections of the model

Places where an earlier version of the model disagreed with the code and was changed:

* `extend_digests`: the model let an extension fill a tree exactly; the code panics there, because
  `maybe_push_digest` answers `Some(false)` on a full tree before it asks the iterator. This adds
  `c07_full_merge_refuted` and property C56.

## Mutation tests

`seeded/mutations/*.py` lists wrong programs as edits of model definitions; `tools/mutate.py` applies each to a
scratch copy, rebuilds everything that depends on it and records in `seeded/LOG.jsonl` which theorems fail. A
lemma whose proof no longer passes is admitted in the scratch copy so that the build can go on (nothing of this
enters `rocq/theories`); `failed` lists these, and `claims_lost` the property theorems that then rest on an
admitted lemma. What is recorded is therefore that a *proof* no longer passes. For most mutations the statement
itself is false of the wrong program, but this is not established separately; an `Example` or a `_refuted`
theorem in the list did fail by computation.

Until property C85 the line of an attempt was removed from the log when no theorem failed (the wrong program does not
differ where the theorems speak, or the theorems were then tightened and the edit run again) or when the run did not
finish (a proof that does not end, or an edit that changes the arguments of a definition). These lines were put
back from the record of the runs and are marked `restored`, with the reason in `outcome`; for them the names of
the proofs that failed before the run stopped are not known, and attempts whose output was not recorded may be missing.

## Trusted base

* Coq 8.16.1: its kernel, including the virtual machine (`vm_compute` is used for witnesses and examples).
* The hand transcription of the Rust code into Gallina, within the limits listed above.
* The Coq standard library. No axiom is used by any theorem of the manifest: the table below is what
  `Print Assumptions` prints. (A checker that lists the axioms present in loaded libraries also shows those of
  `Coq.ssr.ssrunder`, which most modules of the standard library load (`Arith` and `List` among them); no theorem depends on them.)

| property | theorem | file | Print Assumptions |
|---|---|---|---|
| C01 | `c01_root_after_pushes` | MtProps.v | Closed under the global context |
| C01 | `c02_settled_history_root` | MtProps.v | Closed under the global context |
| C02 | `c02_batch_equals_pushes_refuted` | MtProps.v | Closed under the global context |
| C02 | `c02_batch_equals_pushes_partial` | MtProps.v | Closed under the global context |
| C02 | `c02_push_heals` | MtProps.v | Closed under the global context |
| C02 | `c02_settled_history_root` | MtProps.v | Closed under the global context |
| C03 | `c03_paths_verify` | MtProps.v | Closed under the global context |
| C03 | `c03_verification_sound` | MtProps.v | Closed under the global context |
| C03 | `c03_verify_is_spec` | MtProps.v | Closed under the global context |
| C04 | `c04_single_path_agrees` | MtProps.v | Closed under the global context |
| C04 | `c04_current_path_agrees` | MtProps.v | Closed under the global context |
| C04 | `c04_current_path_default_digest_refuted` | MtProps.v | Closed under the global context |
| C05 | `c05_capacity` | MtProps.v | Closed under the global context |
| C06 | `c06_partial_follows_full` | PtProps.v | Closed under the global context |
| C06 | `c06_position_is_provable` | PtProps.v | Closed under the global context |
| C06 | `c06_marks_and_prunes_do_not_matter` | PtProps.v | Closed under the global context |
| C06 | `c06_unmarked_leaves_verify` | PtProps.v | Closed under the global context |
| C06 | `c06_pruned_path_refuted` | PtProps.v | Closed under the global context |
| C07 | `c07_fork_follows_items` | FkProps.v | Closed under the global context |
| C07 | `c07_fork_equals_direct` | FkProps.v | Closed under the global context |
| C07 | `c07_fork_equals_direct_settled_later` | FkProps.v | Closed under the global context |
| C07 | `c07_merge_equals_direct` | FkProps.v | Closed under the global context |
| C07 | `c07_reset_restores` | FkProps.v | Closed under the global context |
| C07 | `c07_empty_fork_root_refuted` | FkProps.v | Closed under the global context |
| C07 | `c07_height_two_refuted` | FkProps.v | Closed under the global context |
| C07 | `c07_unsettled_fork_refuted` | FkProps.v | Closed under the global context |
| C07 | `c07_merged_base_root_refuted` | FkProps.v | Closed under the global context |
| C07 | `c07_remove_base_leaf_refuted` | FkProps.v | Closed under the global context |
| C07 | `c07_mark_lost_refuted` | FkProps.v | Closed under the global context |
| C07 | `c07_plain_merge_marks_refuted` | FkProps.v | Closed under the global context |
| C07 | `c07_exact_capacity_refuted` | FkProps.v | Closed under the global context |
| C07 | `c07_full_merge_refuted` | FkProps.v | Closed under the global context |
| C08 | `c08_rollback_restores` | FoProps.v | Closed under the global context |
| C08 | `c08_forest_follows_items` | FoProps.v | Closed under the global context |
| C08 | `c08_commit_is_permanent` | FoProps.v | Closed under the global context |
| C09 | `c09_only_own_shard` | FoProps.v | Closed under the global context |
| C09 | `c09_batch_by_shard` | FoProps.v | Closed under the global context |
| C09 | `c09_proof_verifies` | FoProps.v | Closed under the global context |
| C09 | `c09_unsettled_proof_refuted` | FoProps.v | Closed under the global context |
| C10 | `c10_selection_refuted` | AssetProps.v | Closed under the global context |
| C10 | `c10_selection_partial` | AssetProps.v | Closed under the global context |
| C10 | `c10_coins_are_stored` | AssetProps.v | Closed under the global context |
| C11 | `c11_asset_list` | AssetProps.v | Closed under the global context |
| C11 | `c11_frame` | AssetProps.v | Closed under the global context |
| C11 | `c11_withdraw_unchecked` | AssetProps.v | Closed under the global context |
| C12 | `c12_withdraw_all_refuted` | AssetProps.v | Closed under the global context |
| C12 | `c12_withdraw_all_list_refuted` | AssetProps.v | Closed under the global context |
| C12 | `c12_balances` | AssetProps.v | Closed under the global context |
| C12 | `c12_withdraw_all_partial` | AssetProps.v | Closed under the global context |
| C13 | `c13_disjoint_refuted` | AssetProps.v | Closed under the global context |
| C13 | `c13_net_change` | AssetProps.v | Closed under the global context |
| C13 | `c13_no_growth` | AssetProps.v | Closed under the global context |
| C13 | `c13_disjoint_partial` | AssetProps.v | Closed under the global context |
| C14 | `c14_assets` | SgProps.v | Closed under the global context |
| C14 | `c14_split` | SgProps.v | Closed under the global context |
| C14 | `c14_report` | SgProps.v | Closed under the global context |
| C14 | `c14_succeeds` | SgProps.v | Closed under the global context |
| C14 | `c14_own_request_in_step` | SgProps.v | Closed under the global context |
| C14 | `c14_spendable` | SgProps.v | Closed under the global context |
| C14 | `c14_overflow_check_refuted` | SgProps.v | Closed under the global context |
| C14 | `c14_error_keeps_changes_refuted` | SgProps.v | Closed under the global context |
| C15 | `c15_success` | SnProps.v | Closed under the global context |
| C15 | `c15_error_partial` | SnProps.v | Closed under the global context |
| C15 | `c15_recovers` | SnProps.v | Closed under the global context |
| C15 | `c15_refuted` | SnProps.v | Closed under the global context |
| C16 | `c16_transfer` | SnProps.v | Closed under the global context |
| C16 | `c16_transfer_succeeds` | SnProps.v | Closed under the global context |
| C16 | `c16_consolidation` | SnProps.v | Closed under the global context |
| C16 | `c16_consolidation_succeeds` | SnProps.v | Closed under the global context |
| C17 | `c17_payment` | SnProps.v | Closed under the global context |
| C17 | `c17_payment_succeeds` | SnProps.v | Closed under the global context |
| C18 | `c18_new_refuted` | AssetProps.v | Closed under the global context |
| C18 | `c18_new_partial` | AssetProps.v | Closed under the global context |
| C18 | `c18_request` | AssetProps.v | Closed under the global context |
| C19 | `c19_prune_partial` | CkProps.v | Closed under the global context |
| C19 | `c19_drops_unseen_refuted` | CkProps.v | Closed under the global context |
| C19 | `c19_panics_refuted` | CkProps.v | Closed under the global context |
| C19 | `c19_incomparable_refuted` | CkProps.v | Closed under the global context |
| C19 | `c19_order_refuted` | CkProps.v | Closed under the global context |
| C20 | `c20_sync` | SgProps.v | Closed under the global context |
| C20 | `c20_accumulator` | SgProps.v | Closed under the global context |
| C20 | `c20_sbt_own_request_partial` | SgProps.v | Closed under the global context |
| C20 | `c20_sbt_refuted` | SgProps.v | Closed under the global context |
| C21 | `c21_estimate_partial` | SnProps.v | Closed under the global context |
| C21 | `c21_refuted` | SnProps.v | Closed under the global context |
| C22 | `c22_no_double_spend_partial` | LgProps.v | Closed under the global context |
| C22 | `c22_one_post` | LgProps.v | Closed under the global context |
| C22 | `c22_refuted` | LgProps.v | Closed under the global context |
| C23 | `c23_verifier_error_partial` | LgProps.v | Closed under the global context |
| C23 | `c23_verifier_called` | LgProps.v | Closed under the global context |
| C23 | `c23_refuted` | LgProps.v | Closed under the global context |
| C24 | `c24_balances` | LgProps.v | Closed under the global context |
| C24 | `c24_rejected` | LgProps.v | Closed under the global context |
| C24 | `c24_push_rejected` | LgProps.v | Closed under the global context |
| C24 | `c24_set_balance` | LgProps.v | Closed under the global context |
| C24 | `c24_overflow_refuted` | LgProps.v | Closed under the global context |
| C24 | `c24_push_atomic_refuted` | LgProps.v | Closed under the global context |
| C25 | `c25_signed_sinks_partial` | LgProps.v | Closed under the global context |
| C25 | `c25_push_credits_pusher` | LgProps.v | Closed under the global context |
| C25 | `c25_refuted` | LgProps.v | Closed under the global context |
| C26 | `c26_reader` | LgProps.v | Closed under the global context |
| C26 | `c26_complete_after_pull` | LgProps.v | Closed under the global context |
| C26 | `c26_pull_is_reply` | LgProps.v | Closed under the global context |
| C27 | `c27_initial_read_partial` | LgProps.v | Closed under the global context |
| C27 | `c27_refuted` | LgProps.v | Closed under the global context |
| C28 | `c28_spendable_partial` | LgProps.v | Closed under the global context |
| C28 | `c28_refuted` | LgProps.v | Closed under the global context |
| C29 | `c29_accept_conditions` | LgProps.v | Closed under the global context |
| C29 | `c29_accepts` | LgProps.v | Closed under the global context |
| C29 | `c29_push` | LgProps.v | Closed under the global context |
| C30 | `c30_round_trip` | CodecProps.v | Closed under the global context |
| C30 | `c30_prefix_free` | CodecProps.v | Closed under the global context |
| C30 | `c30_decode_canonical` | CodecProps.v | Closed under the global context |
| C30 | `c30_truncation_fails` | CodecProps.v | Closed under the global context |
| C31 | `c31_round_trip_refuted` | CodecProps.v | Closed under the global context |
| C31 | `c31_option_never_round_trips` | CodecProps.v | Closed under the global context |
| C31 | `c31_result_never_round_trips` | CodecProps.v | Closed under the global context |
| C31 | `c31_some_decodes_to_none` | CodecProps.v | Closed under the global context |
| C32 | `c32_write_resets_input_refuted` | CodecProps.v | Closed under the global context |
| C32 | `c32_exact_size_refuted` | CodecProps.v | Closed under the global context |
| C32 | `c32_write_accounts_partial` | CodecProps.v | Closed under the global context |
| C32 | `c32_vec_write_never_resets_input` | CodecProps.v | Closed under the global context |
| C32 | `c32_write_drain` | CodecProps.v | Closed under the global context |
| C32 | `c32_exact_size_int` | CodecProps.v | Closed under the global context |
| C32 | `c32_exact_size_parts_panic` | CodecProps.v | Closed under the global context |
| C32 | `c32_array_reader_repeats` | CodecProps.v | Closed under the global context |
| C33 | `c33_post_encoding_refuted` | CodecProps.v | Closed under the global context |
| C33 | `c33_post_encoding_partial` | CodecProps.v | Closed under the global context |
| C33 | `c33_signed_message_injective` | CodecProps.v | Closed under the global context |
| C34 | `c34_round_trip` | DxProps.v | Closed under the global context |
| C34 | `c34_tag_detected` | DxProps.v | Closed under the global context |
| C34 | `c34_change_detected` | DxProps.v | Closed under the global context |
| C34 | `c34_single_block` | DxProps.v | Closed under the global context |
| C34 | `c34_long_block_refuted` | DxProps.v | Closed under the global context |
| C34 | `c34_short_block_panics` | DxProps.v | Closed under the global context |
| C34 | `c34_incoming_note` | DxProps.v | Closed under the global context |
| C34 | `c34_light_note` | DxProps.v | Closed under the global context |
| C34 | `c34_outgoing_note` | DxProps.v | Closed under the global context |
| C35 | `c35_header_accepts` | CoProps.v | Closed under the global context |
| C35 | `c35_mini_header_accepts` | CoProps.v | Closed under the global context |
| C35 | `c35_header_round_trip` | CoProps.v | Closed under the global context |
| C35 | `c35_mini_header_round_trip` | CoProps.v | Closed under the global context |
| C35 | `c35_header_rejects` | CoProps.v | Closed under the global context |
| C35 | `c35_header_canonical` | CoProps.v | Closed under the global context |
| C35 | `c35_wrap_unwrap` | CoProps.v | Closed under the global context |
| C35 | `c35_dump_parse` | CoProps.v | Closed under the global context |
| C35 | `c35_encrypt_decrypt` | CoProps.v | Closed under the global context |
| C35 | `c35_mini_wrap_unwrap` | CoProps.v | Closed under the global context |
| C35 | `c35_mini_dump_parse` | CoProps.v | Closed under the global context |
| C35 | `c35_unwrap_authentic` | CoProps.v | Closed under the global context |
| C35 | `c35_mini_unwrap_authentic` | CoProps.v | Closed under the global context |
| C36 | `c36_thread_fresh_partial` | CoProps.v | Closed under the global context |
| C36 | `c36_seeded_reuse` | CoProps.v | Closed under the global context |
| C36 | `c36_mini_reuse` | CoProps.v | Closed under the global context |
| C36 | `c36_mini_leak` | CoProps.v | Closed under the global context |
| C36 | `c36_file_reuse` | FsProps.v | Closed under the global context |
| C36 | `c36_file_leak` | FsProps.v | Closed under the global context |
| C36 | `c36_refuted` | CoProps.v | Closed under the global context |
| C36 | `c36_mini_refuted` | CoProps.v | Closed under the global context |
| C36 | `c36_file_refuted` | FsProps.v | Closed under the global context |
| C37 | `c37_round_trip_partial` | FsProps.v | Closed under the global context |
| C37 | `c37_lost` | FsProps.v | Closed under the global context |
| C37 | `c37_refuted` | FsProps.v | Closed under the global context |
| C38 | `c38_rejected_refuted` | CerProps.v | Closed under the global context |
| C38 | `c38_rejected_partial` | CerProps.v | Closed under the global context |
| C38 | `c38_single_circuit` | CerProps.v | Closed under the global context |
| C39 | `c39_once_refuted` | CerProps.v | Closed under the global context |
| C39 | `c39_once_partial` | CerProps.v | Closed under the global context |
| C40 | `c40_nonces_increase` | CerProps.v | Closed under the global context |
| C40 | `c40_no_replay` | CerProps.v | Closed under the global context |
| C40 | `c40_wrong_nonce` | CerProps.v | Closed under the global context |
| C40 | `c40_after_restart_refuted` | CerProps.v | Closed under the global context |
| C41 | `c41_lock_held_refuted` | CerProps.v | Closed under the global context |
| C41 | `c41_lock_held_partial` | CerProps.v | Closed under the global context |
| C42 | `c42_crash_refuted` | CerProps.v | Closed under the global context |
| C42 | `c42_crash_partial` | CerProps.v | Closed under the global context |
| C43 | `c43_one_place_refuted` | CerProps.v | Closed under the global context |
| C43 | `c43_one_place_partial` | CerProps.v | Closed under the global context |
| C43 | `c43_levels` | CerProps.v | Closed under the global context |
| C43 | `c43_head_first` | CerProps.v | Closed under the global context |
| C43 | `c43_position` | CerProps.v | Closed under the global context |
| C44 | `c44_transcript_refuted` | CerProps.v | Closed under the global context |
| C44 | `c44_transcript_partial` | CerProps.v | Closed under the global context |
| C44 | `c44_last_circuit` | CerProps.v | Closed under the global context |
| C45 | `c45_load` | CerProps.v | Closed under the global context |
| C45 | `c45_live` | CerProps.v | Closed under the global context |
| C46 | `c46_converges` | CerProps.v | Closed under the global context |
| C46 | `c46_exhausted` | CerProps.v | Closed under the global context |
| C47 | `c47_decode_no_panic_refuted` | CodecProps.v | Closed under the global context |
| C47 | `c47_decode_no_panic_partial` | CodecProps.v | Closed under the global context |
| C47 | `c47_vec_decode_panics` | CodecProps.v | Closed under the global context |
| C48 | `c48_asset_map` | AssetProps.v | Closed under the global context |
| C48 | `c48_assets` | AssetProps.v | Closed under the global context |
| C49 | `c49_sync_total_partial` | DxProps.v | Closed under the global context |
| C49 | `c49_sync_stopped` | DxProps.v | Closed under the global context |
| C49 | `c49_nullifier_stopped` | DxProps.v | Closed under the global context |
| C49 | `c49_refuted` | DxProps.v | Closed under the global context |
| C50 | `c50_setup_binding_partial` | DxProps.v | Closed under the global context |
| C50 | `c34_change_detected` | DxProps.v | Closed under the global context |
| C50 | `c50_padding_refuted` | DxProps.v | Closed under the global context |
| C51 | `c51_mini_parse_stops` | CoProps.v | Closed under the global context |
| C51 | `c51_mini_unwrap_stops` | CoProps.v | Closed under the global context |
| C51 | `c51_parse_stops` | CoProps.v | Closed under the global context |
| C51 | `c51_unwrap_stops` | CoProps.v | Closed under the global context |
| C51 | `c51_refuted` | CoProps.v | Closed under the global context |
| C52 | `c52_authentic_partial` | FsProps.v | Closed under the global context |
| C52 | `c52_swap` | FsProps.v | Closed under the global context |
| C52 | `c52_refuted` | FsProps.v | Closed under the global context |
| C53 | `c53_reach` | WaProps.v | Closed under the global context |
| C53 | `c53_sync` | WaProps.v | Closed under the global context |
| C53 | `c53_sync_all` | WaProps.v | Closed under the global context |
| C53 | `c53_restart` | WaProps.v | Closed under the global context |
| C53 | `c53_succeeds_partial` | WaProps.v | Closed under the global context |
| C53 | `c53_check` | WaProps.v | Closed under the global context |
| C53 | `c53_checked_is_signed` | WaProps.v | Closed under the global context |
| C53 | `c53_panic_refuted` | WaProps.v | Closed under the global context |
| C53 | `c53_behind_refuted` | WaProps.v | Closed under the global context |
| C54 | `c54_accepted_partial` | EeProps.v | Closed under the global context |
| C54 | `c54_refuted` | EeProps.v | Closed under the global context |
| C55 | `c55_step` | EeProps.v | Closed under the global context |
| C55 | `c55_session` | EeProps.v | Closed under the global context |
| C56 | `c56_full_extend_partial` | ExProps.v | Closed under the global context |
| C56 | `c56_single_extend_partial` | ExProps.v | Closed under the global context |
| C56 | `c56_partial_extend_partial` | ExProps.v | Closed under the global context |
| C56 | `c56_from_iter_partial` | ExProps.v | Closed under the global context |
| C56 | `c56_exact_capacity_refuted` | ExProps.v | Closed under the global context |
| C56 | `c56_loose_bound_refuted` | ExProps.v | Closed under the global context |
| C57 | `c57_follows_reference` | TkProps.v | Closed under the global context |
| C57 | `c57_merge_detaches` | TkProps.v | Closed under the global context |
| C57 | `c57_attach_refuted` | TkProps.v | Closed under the global context |
| C57 | `c57_with_leaves_refuted` | TkProps.v | Closed under the global context |
| C57 | `c57_full_merge_refuted` | TkProps.v | Closed under the global context |
| C58 | `c58_sound` | CiProps.v | Closed under the global context |
| C58 | `c58_complete` | CiProps.v | Closed under the global context |
| C58 | `c58_zero_asset` | CiProps.v | Closed under the global context |
| C59 | `c59_no_inflation` | CiProps.v | Closed under the global context |
| C59 | `c59_unchecked_refuted` | CiProps.v | Closed under the global context |
| C60 | `c60_sound_partial` | IdProps.v | Closed under the global context |
| C60 | `c60_complete` | IdProps.v | Closed under the global context |
| C60 | `c60_no_replay_partial` | IdProps.v | Closed under the global context |
| C60 | `c60_forgery_refuted` | IdProps.v | Closed under the global context |
| C60 | `c60_replay_refuted` | IdProps.v | Closed under the global context |
| C61 | `c61_honest` | MpProps.v | Closed under the global context |
| C61 | `c61_honest_total` | MpProps.v | Closed under the global context |
| C61 | `c61_sound` | MpProps.v | Closed under the global context |
| C61 | `c61_not_lucky` | MpProps.v | Closed under the global context |
| C61 | `c61_never_panics` | MpProps.v | Closed under the global context |
| C61 | `c61_chain` | MpProps.v | Closed under the global context |
| C62 | `c62_bound_partial` | MpProps.v | Closed under the global context |
| C62 | `c62_empty_proof` | MpProps.v | Closed under the global context |
| C62 | `c62_erase` | MpProps.v | Closed under the global context |
| C62 | `c62_knowledge_refuted` | MpProps.v | Closed under the global context |
| C63 | `c63_complete` | MpProps.v | Closed under the global context |
| C63 | `c63_sound` | MpProps.v | Closed under the global context |
| C63 | `c63_agree_refuted` | MpProps.v | Closed under the global context |
| C64 | `c64_default` | KzProps.v | Closed under the global context |
| C64 | `c64_update` | KzProps.v | Closed under the global context |
| C64 | `c64_honest` | KzProps.v | Closed under the global context |
| C64 | `c64_sound` | KzProps.v | Closed under the global context |
| C64 | `c64_no_panic` | KzProps.v | Closed under the global context |
| C65 | `c65_bound` | KzProps.v | Closed under the global context |
| C65 | `c65_chain` | KzProps.v | Closed under the global context |
| C65 | `c65_zero` | KzProps.v | Closed under the global context |
| C65 | `c65_unchecked_refuted` | KzProps.v | Closed under the global context |
| C66 | `c66_correct` | PxProps.v | Closed under the global context |
| C66 | `c66_none` | PxProps.v | Closed under the global context |
| C66 | `c66_complete` | PxProps.v | Closed under the global context |
| C66 | `c66_no_panic` | PxProps.v | Closed under the global context |
| C66 | `c66_empty_panics` | PxProps.v | Closed under the global context |
| C67 | `c67_square_partial` | PxProps.v | Closed under the global context |
| C67 | `c67_outer_partial` | PxProps.v | Closed under the global context |
| C67 | `c67_col_partial` | PxProps.v | Closed under the global context |
| C67 | `c67_row_partial` | PxProps.v | Closed under the global context |
| C67 | `c67_matmul_refuted` | PxProps.v | Closed under the global context |
| C67 | `c67_col_refuted` | PxProps.v | Closed under the global context |
| C67 | `c67_row_refuted` | PxProps.v | Closed under the global context |
| C68 | `c68_derive` | PxProps.v | Closed under the global context |
| C68 | `c68_product_partial` | PxProps.v | Closed under the global context |
| C68 | `c68_factor_partial` | PxProps.v | Closed under the global context |
| C68 | `c68_sparse` | PxProps.v | Closed under the global context |
| C68 | `c68_product_refuted` | PxProps.v | Closed under the global context |
| C68 | `c68_factor_refuted` | PxProps.v | Closed under the global context |
| C69 | `c69_compress_partial` | PxProps.v | Closed under the global context |
| C69 | `c69_optimized_partial` | PxProps.v | Closed under the global context |
| C69 | `c69_no_full_rounds` | PxProps.v | Closed under the global context |
| C69 | `c69_refuted` | PxProps.v | Closed under the global context |
| C70 | `c70_mds` | PxProps.v | Closed under the global context |
| C70 | `c70_total` | PxProps.v | Closed under the global context |
| C70 | `c70_width_one` | PxProps.v | Closed under the global context |
| C71 | `c71_bijective` | PxProps.v | Closed under the global context |
| C71 | `c71_hash` | PxProps.v | Closed under the global context |
| C71 | `c71_injective` | PxProps.v | Closed under the global context |
| C71 | `c71_power` | PxProps.v | Closed under the global context |
| C72 | `c72_register` | LfProps.v | Closed under the global context |
| C72 | `c72_stream` | LfProps.v | Closed under the global context |
| C72 | `c72_next_returns` | LfProps.v | Closed under the global context |
| C72 | `c72_next_zero` | LfProps.v | Closed under the global context |
| C72 | `c72_distinct` | LfProps.v | Closed under the global context |
| C72 | `c72_distinct_refuted` | LfProps.v | Closed under the global context |
| C72 | `c72_sample_partial` | LfProps.v | Closed under the global context |
| C72 | `c72_round_constants_partial` | LfProps.v | Closed under the global context |
| C73 | `c73_field` | PrProps.v | Closed under the global context |
| C73 | `c73_sbox` | PrProps.v | Closed under the global context |
| C73 | `c73_cube_collides` | PrProps.v | Closed under the global context |
| C73 | `c73_permutation` | PrProps.v | Closed under the global context |
| C73 | `c73_hash` | PrProps.v | Closed under the global context |
| C74 | `c74_complete` | AuProps.v | Closed under the global context |
| C74 | `c74_unique` | AuProps.v | Closed under the global context |
| C74 | `c74_nonce_reuse` | AuProps.v | Closed under the global context |
| C74 | `c74_zero_key` | AuProps.v | Closed under the global context |
| C74 | `c74_protocol` | AuProps.v | Closed under the global context |
| C74 | `c74_authorization` | AuProps.v | Closed under the global context |
| C74 | `c74_from_spending_key` | AuProps.v | Closed under the global context |
| C74 | `c74_sign` | AuProps.v | Closed under the global context |
| C74 | `c74_sign_refuted` | AuProps.v | Closed under the global context |
| C74 | `c74_subgroup_refuted` | AuProps.v | Closed under the global context |
| C75 | `c75_keys` | AuProps.v | Closed under the global context |
| C75 | `c75_fresh` | AuProps.v | Closed under the global context |
| C75 | `c75_loaded_refuted` | AuProps.v | Closed under the global context |
| C76 | `c76_into_post` | AuProps.v | Closed under the global context |
| C76 | `c76_refuses` | AuProps.v | Closed under the global context |
| C76 | `c76_valid` | AuProps.v | Closed under the global context |
| C76 | `c76_accounts_refuted` | AuProps.v | Closed under the global context |
| C77 | `c77_any_post` | TdProps.v | Closed under the global context |
| C77 | `c77_batched` | TdProps.v | Closed under the global context |
| C77 | `c77_signed` | TdProps.v | Closed under the global context |
| C77 | `c77_signer` | TdProps.v | Closed under the global context |
| C77 | `c77_context_refuted` | TdProps.v | Closed under the global context |
| C78 | `c78_initial_sync` | IsProps.v | Closed under the global context |
| C78 | `c78_pages` | IsProps.v | Closed under the global context |
| C78 | `c78_wallet` | IsProps.v | Closed under the global context |
| C78 | `c78_assets` | IsProps.v | Closed under the global context |
| C78 | `c78_same_as_sync` | IsProps.v | Closed under the global context |
| C78 | `c78_report` | IsProps.v | Closed under the global context |
| C78 | `c78_succeeds` | IsProps.v | Closed under the global context |
| C78 | `c78_spendable` | IsProps.v | Closed under the global context |
| C78 | `c78_simulation_read_refuted` | IsProps.v | Closed under the global context |
| C78 | `c78_old_notes_refuted` | IsProps.v | Closed under the global context |
| C78 | `c78_old_proof_refuted` | IsProps.v | Closed under the global context |
| C79 | `c79_roundtrip` | PsProps.v | Closed under the global context |
| C79 | `c79_format` | PsProps.v | Closed under the global context |
| C79 | `c79_injective` | PsProps.v | Closed under the global context |
| C79 | `c79_injective2` | PsProps.v | Closed under the global context |
| C79 | `c79_sound` | PsProps.v | Closed under the global context |
| C79 | `c79_decode` | PsProps.v | Closed under the global context |
| C79 | `c79_decode_uncompressed` | PsProps.v | Closed under the global context |
| C79 | `c79_unique_refuted` | PsProps.v | Closed under the global context |
| C79 | `c79_infinity_refuted` | PsProps.v | Closed under the global context |
| C79 | `c79_truncated_refuted` | PsProps.v | Closed under the global context |
| C79 | `c79_chunks_refuted` | PsProps.v | Closed under the global context |
| C79 | `c79_subgroup_refuted` | PsProps.v | Closed under the global context |
| C80 | `c80_layout` | PsFileProps.v | Closed under the global context |
| C80 | `c80_read` | PsFileProps.v | Closed under the global context |
| C80 | `c80_sound` | PsFileProps.v | Closed under the global context |
| C80 | `c80_wrong_curve` | PsFileProps.v | Closed under the global context |
| C80 | `c80_proof` | PsFileProps.v | Closed under the global context |
| C80 | `c80_proof_sound` | PsFileProps.v | Closed under the global context |
| C80 | `c80_panic_refuted` | PsFileProps.v | Closed under the global context |
| C80 | `c80_size_refuted` | PsFileProps.v | Closed under the global context |
| C81 | `c81_accumulator` | PsFileProps.v | Closed under the global context |
| C81 | `c81_accumulator_sound` | PsFileProps.v | Closed under the global context |
| C81 | `c81_proof` | PsFileProps.v | Closed under the global context |
| C81 | `c81_proof_sound` | PsFileProps.v | Closed under the global context |
| C81 | `c81_subgroup_refuted` | PsFileProps.v | Closed under the global context |
| C82 | `c82_path` | KyProps.v | Closed under the global context |
| C82 | `c82_path_injective` | KyProps.v | Closed under the global context |
| C82 | `c82_spending_key` | KyProps.v | Closed under the global context |
| C82 | `c82_range_refuted` | KyProps.v | Closed under the global context |
| C82 | `c82_range` | KyProps.v | Closed under the global context |
| C82 | `c82_create` | KyProps.v | Closed under the global context |
| C82 | `c82_create_total` | KyProps.v | Closed under the global context |
| C82 | `c82_exists` | KyProps.v | Closed under the global context |
| C82 | `c82_write` | KyProps.v | Closed under the global context |
| C82 | `c82_default` | KyProps.v | Closed under the global context |
| C82 | `c82_same` | KyProps.v | Closed under the global context |
| C82 | `c82_accounts_refuted` | KyProps.v | Closed under the global context |
| C82 | `c82_account_keys` | KyProps.v | Closed under the global context |
| C82 | `c82_own` | KyProps.v | Closed under the global context |
| C83 | `c83_select` | WmProps.v | Closed under the global context |
| C83 | `c83_select_total` | WmProps.v | Closed under the global context |
| C83 | `c83_select_order_refuted` | WmProps.v | Closed under the global context |
| C83 | `c83_window` | WmProps.v | Closed under the global context |
| C83 | `c83_window_total` | WmProps.v | Closed under the global context |
| C83 | `c83_scalar_mul` | WmProps.v | Closed under the global context |
| C83 | `c83_unchecked` | WmProps.v | Closed under the global context |
| C83 | `c83_odd` | WmProps.v | Closed under the global context |
| C83 | `c83_bases` | WmProps.v | Closed under the global context |
| C83 | `c83_fixed_base` | WmProps.v | Closed under the global context |
| C83 | `c83_var` | WmProps.v | Closed under the global context |
| C83 | `c83_agree` | WmProps.v | Closed under the global context |
| C83 | `c83_fixed_base_refuted` | WmProps.v | Closed under the global context |
| C83 | `c83_reduce` | WmProps.v | Closed under the global context |
| C84 | `c84_range` | GdProps.v | Closed under the global context |
| C84 | `c84_range_total` | GdProps.v | Closed under the global context |
| C84 | `c84_allocate` | GdProps.v | Closed under the global context |
| C84 | `c84_add` | GdProps.v | Closed under the global context |
| C84 | `c84_sum` | GdProps.v | Closed under the global context |
| C84 | `c84_sum_total` | GdProps.v | Closed under the global context |
| C84 | `c84_add_refuted` | GdProps.v | Closed under the global context |
| C84 | `c84_mul` | GdProps.v | Closed under the global context |
| C84 | `c84_mul_refuted` | GdProps.v | Closed under the global context |
| C84 | `c84_names` | GdProps.v | Closed under the global context |
| C84 | `c84_names_refuted` | GdProps.v | Closed under the global context |
| C84 | `c84_select` | GdProps.v | Closed under the global context |
| C84 | `c84_swap` | GdProps.v | Closed under the global context |
| C84 | `c84_smaller` | GdProps.v | Closed under the global context |
| C84 | `c84_lift` | GdProps.v | Closed under the global context |
| C84 | `c84_native` | GdProps.v | Closed under the global context |
| C84 | `c84_rem_complete` | GdProps.v | Closed under the global context |
| C84 | `c84_rem_range` | GdProps.v | Closed under the global context |
| C84 | `c84_rem_any` | GdProps.v | Closed under the global context |
| C84 | `c84_rem_refuted` | GdProps.v | Closed under the global context |
| C84 | `c84_rem_large` | GdProps.v | Closed under the global context |
| C85 | `c85_initialize` | ItProps.v | Closed under the global context |
| C85 | `c85_interpolation` | ItProps.v | Closed under the global context |
| C85 | `c85_errors` | ItProps.v | Closed under the global context |
| C85 | `c85_variables` | ItProps.v | Closed under the global context |
| C85 | `c85_contribution` | ItProps.v | Closed under the global context |
| C85 | `c85_complete` | ItProps.v | Closed under the global context |
| C85 | `c85_panic` | ItProps.v | Closed under the global context |
| C85 | `c85_powers_refuted` | ItProps.v | Closed under the global context |
| C85 | `c85_short_refuted` | ItProps.v | Closed under the global context |
| C86 | `c86_power` | PcProps.v | Closed under the global context |
| C86 | `c86_hash` | PcProps.v | Closed under the global context |
| C86 | `c86_join` | PcProps.v | Closed under the global context |
| C86 | `c86_equal` | PcProps.v | Closed under the global context |
| C86 | `c86_verify` | PcProps.v | Closed under the global context |
| C86 | `c86_known` | PcProps.v | Closed under the global context |
| C86 | `c86_assert` | PcProps.v | Closed under the global context |
| C86 | `c86_membership` | PcProps.v | Closed under the global context |
| C86 | `c86_length_refuted` | PcProps.v | Closed under the global context |
| C87 | `c87_drop` | SaProps.v | Closed under the global context |
| C87 | `c87_order` | SaProps.v | Closed under the global context |
| C87 | `c87_complete` | SaProps.v | Closed under the global context |
| C87 | `c87_no_panic` | SaProps.v | Closed under the global context |
| C87 | `c87_live` | SaProps.v | Closed under the global context |
| C87 | `c87_finite` | SaProps.v | Closed under the global context |
| C87 | `c87_pool` | SaProps.v | Closed under the global context |
| C87 | `c87_delivered` | SaProps.v | Closed under the global context |
| C87 | `c87_threads_refuted` | SaProps.v | Closed under the global context |
| C88 | `c88_seed` | FzProps.v | Closed under the global context |
| C88 | `c88_seed_same` | FzProps.v | Closed under the global context |
| C88 | `c88_field` | FzProps.v | Closed under the global context |
| C88 | `c88_field_found` | FzProps.v | Closed under the global context |
| C88 | `c88_uniform` | FzProps.v | Closed under the global context |
| C88 | `c88_point` | FzProps.v | Closed under the global context |
| C88 | `c88_point_good` | FzProps.v | Closed under the global context |
| C88 | `c88_fuzz_list` | FzProps.v | Closed under the global context |
| C88 | `c88_fuzz_u8` | FzProps.v | Closed under the global context |
| C88 | `c88_fuzz_big` | FzProps.v | Closed under the global context |
| C88 | `c88_fuzz_field` | FzProps.v | Closed under the global context |
| C88 | `c88_fuzz_bit_refuted` | FzProps.v | Closed under the global context |
| C89 | `c89_after` | AkProps.v | Closed under the global context |
| C89 | `c89_finish` | AkProps.v | Closed under the global context |
| C89 | `c89_decode_any` | AkProps.v | Closed under the global context |
| C89 | `c89_decode` | AkProps.v | Closed under the global context |
| C89 | `c89_read_error_lost` | AkProps.v | Closed under the global context |
| C89 | `c89_encode_error` | AkProps.v | Closed under the global context |
| C89 | `c89_encode` | AkProps.v | Closed under the global context |
| C89 | `c89_vec` | AkProps.v | Closed under the global context |
| C89 | `c89_read_error_refuted` | AkProps.v | Closed under the global context |
| C89 | `c89_short_refuted` | AkProps.v | Closed under the global context |
| C89 | `c89_serializer_error_refuted` | AkProps.v | Closed under the global context |
| C90 | `c90_download` | DlProps.v | Closed under the global context |
| C90 | `c90_if_invalid` | DlProps.v | Closed under the global context |
| C90 | `c90_broken` | DlProps.v | Closed under the global context |
| C90 | `c90_good` | DlProps.v | Closed under the global context |
| C90 | `c90_stuck` | DlProps.v | Closed under the global context |
| C90 | `c90_get` | DlProps.v | Closed under the global context |
| C90 | `c90_build` | DlProps.v | Closed under the global context |
| C90 | `c90_build_lfs` | DlProps.v | Closed under the global context |
| C90 | `c90_build_wrong` | DlProps.v | Closed under the global context |
| C90 | `c90_repair_refuted` | DlProps.v | Closed under the global context |
| C90 | `c90_stem_refuted` | DlProps.v | Closed under the global context |
| C91 | `c91_round_trip` | CfProps.v | Closed under the global context |
| C91 | `c91_open_end` | CfProps.v | Closed under the global context |
| C91 | `c91_sound` | CfProps.v | Closed under the global context |
| C91 | `c91_double_refuted` | CfProps.v | Closed under the global context |
| C91 | `c91_spaces_refuted` | CfProps.v | Closed under the global context |
