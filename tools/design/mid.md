
## Conventions

* A Rust panic (index out of range, `unwrap`, `expect`, overflow in a checked build, capacity overflow) is an
  explicit value of the result type, distinct from an `Err`.
* Sizes and indices are `nat`, or `N` where bytes or overflow matter. `usize` is 64 bits wide. Overflow of tree
  indices is not modelled (a tree of height at most 64 does not reach it); overflow that input can reach is
  (values, sums, estimates, index subtraction, container lengths). Where a checked and an unchecked build
  differ, a flag of the model or an extra theorem says what happens in each.
* Cryptography and other external code are Section variables, so the theorems quantify over them. What is
  needed of them is a hypothesis in the statement of the theorem, and an instance that meets it is exhibited
  beside the theorem.
* A property which the faithful model violates is answered by a theorem `..._refuted : exists x, ...` with a
  concrete witness, together with the strongest correct version found. Such a claim has the status `partial`
  in the manifest, and its note starts with or contains the word REFUTED.
* A theorem with the suffix `_partial` proves part of a property; its comment and the manifest say what is
  missing.

## What is modelled and how it is proved

| id | model | proof |
|---|---|---|
| C01 | `InnerTree` as a finite map from map-index to digest, `Full` push | invariant: every node on or left of the current path holds its specification digest; induction over pushes |
| C02 | `NodeRange::join_leaves`, `insert_range_and_join`, batch push | refutation witness (start odd/end even at an inner level); positive theorem when no level has that shape; healing theorem |
| C03 | `path`, `InnerPath::fold`, `verify_path` | invariant of C01 gives the siblings; soundness by injectivity, induction over the path |
| C04 | `CurrentInnerPath::update`, `SinglePath` | simulation relation with the full tree specification |
| C05 | push/batch push | case analysis and invariant |
| C06 | `Partial` with `LeafBTreeMap`, prune | invariant: what is missing belongs to given-up, non-current leaves; simulation with an unpruned tree |
| C07 | `ForkedTree`, `Branch`, `from_current` | simulation: branch represents base ++ pushed, as a partial tree whose first leaves were removed |
| C08 | forest of forked trees, rollback/commit | per shard, from C07 |
| C09 | forest insert, grouping by shard | pointwise |
| C10 | `AssetMap::select` | loop invariant over the iteration |
| C11 | `AssetList` over sorted vectors, binary search as specified by std | invariant preservation, functional specification |
| C12 | balance states | functional specification; refutation for `withdraw_all` atomicity |
| C13 | `normalize_assets` loop | net-change invariant; refutation for disjointness |
| C14 | `sync_with` and what it calls | invariant assets = unspent notes over histories of syncs |
| C15 | `sign` over the rollback accumulator | refutation; success and `rollback` theorems |
| C16 | join rounds | conservation invariant, termination measure |
| C17 | to-public loop | running remainder invariant |
| C18 | `ConsolidationRequest::new` | refutation and exact characterisation |
| C19 | `Checkpoint::prune` | positive on componentwise ordered reads; refutations (panic, data loss) |
| C20 | `sync`, `sbt_sync` checkpoints | positive for `sync`; refutation for `sbt_sync` |
| C21 | estimate and build | equality on non-empty selections; refutation on empty ones |
| C22 | ledger nullifier set as a set indexed by hash | proved when equality implies equal hash; refuted for the derived hash |
| C23 | `is_valid` | refutation; the error outcome is rejected |
| C24 | posting | frame and supply equation over histories |
| C25 | push with account argument | refutation and guarded version |
| C26 | pull | concatenation theorem over arbitrary interleavings |
| C27 | `initial_read` | refutation; exact set of missing notes |
| C28 | registering on a full shard | refutation; version with room |
| C29 | `validate` | exact characterisation |
| C30-C33, C47 | byte codec | round trips and prefix-freeness over a universe of types; refutations for Option, Result, fixed buffers, vectors, TransferPost |
| C48 | asset map | functional specification of every operation |
| C34, C50 | duplex sponge | induction over blocks, any permutation |
| C35, C51 | container readers and writers | exact characterisation of accepted headers; round trips; exact characterisation of the inputs that stop the reader |
| C36 | generators cloned by `encrypt` | reuse theorem for all data; leak through the keystream; positive for the thread's generator |
| C37 | block serializer and deserializer | stream invariant of the serializer, induction over value trees |
| C38-C46 | ceremony server as a labelled transition system whose steps are the critical sections | invariants over all interleavings; witness schedules for refutations; crash points as prefixes of the write list |
| C49 | opening of notes in a sync | exact cause of a stop; witness |
| C52 | loading of files | locality of the deserializer: every byte used comes from a container that opened; witness by exchanging blocks |
| C53 | wallet calls around `sync` and `sign` | invariant over executions: at or behind the signer, equal balances when not behind; two witnesses |
| C54 | posts of `sign` and `consolidate` pushed to the simulated ledger | every sender's root is the current root of its shard when its post is checked; induction over the posts; witness for payments |
| C55 | push, pull and sync in turn | the reply grows the synchronised ledger; value flow of the posts; induction over sessions |
| C56 | `extend_digests` over the three trees | loop invariant over any tree whose push is described; witnesses at the exact capacity |
| C57 | trunks, forks and allocations as a store with fresh names | refinement of a store of lists with version numbers; each fork carries the tree it was made from as a ghost |
| C58 | constraint system as a function of the assignment to a boolean | inversion of the conjunction; field sums are sums of numbers by the ranges; a path that climbs to a root ends in a leaf |
| C59 | the ledger of C22-C29 with proofs about assignments of C58 | invariant over histories with ghost lists of minted and spent notes; every spent note was minted and is spent once |
| C60 | verification and the virtual withdrawal, with the forest of C08 | forest with one item; trees with one leaf by injectivity; witnesses in an instance whose proofs are assignments |
| C61 | phase-two state, `contribute`, `verify_transform`, over any pairing | the pairing equations are equations of scalars; two draws that differ at one index separate two lists of points |
| C62 | ratio proof | points at infinity satisfy every pairing equation; witness over the field with 17 elements |
| C63 | `verify_transform_all` | the proofs of the steps and one change from first to last; witness |
| C64 | accumulator, `update`, `verify_transform`, `power_pairs` | geometric lists; the combination test of C61 for each list |
| C65 | proofs with and without points at infinity | the factor of the proof in the first group is the factor of the accumulator; induction over chains |
| C66 | matrices as lists of rows, elimination with the shadow matrix | augmented rows keep a linear relation; a triangular matrix is solved from below; a column without pivot gives a vector in the kernel |
| C67 | products with the dimension tests of the code | sums; witnesses of 2x3 shapes over the field with 17 elements |
| C68 | derived matrices, sparse matrices, `factor_to_sparse_matrixes` | the first factor commutes with functions of the first element; induction over the factors; witnesses |
| C69 | `compress_round_constants`, `permute` | constants move through the inverse matrix from the last partial round to the first; the matrices as in C68 |
| C70 | `generate_mds` | a Cauchy matrix: elimination of one row and column, induction over the size of the submatrix |
| C71 | rounds, permutation, hash | each round is a composition of bijections |
| C72 | circular buffer, updates, iterator, rejection sampling | refinement to a sequence with the recurrence; the first eighty bits are sums of every second of the next 160, by a computed inverse matrix |
| C73 | instances of C70, C71 | Pocklington's test with certified quotients for the order of the field; Fermat's theorem for the S-box |
| C74 | Schnorr signatures and authorizations over a curve with a cofactor | equations of multiples of the generator |
| C75 | contexts with their caches | invariant of the caches over sequences of uses; witness with caches from outside |
| C76 | `into_post` and the check of its signature | case analysis with C74; witness |
| C77 | `transaction_data`, `batched_transaction_data`, `sign_with_transaction_data` | any post by cases on its shape; signed posts by the shape of what signing makes (C16) |
| C78 | `initial_sync` of wallet and signer, trees rebuilt from leaves and one path | the rebuilt tree agrees with the full tree on what the last leaf and later ones need, an invariant weaker than that of C14 which syncs keep; the loop by the number of notes left |
| C79 | `PpotSerializer` over any curve with a coordinate codec; instances over a prime field and its quadratic extension | laws of a codec (reading inverts writing, order total on a root and its negation) give round trip and soundness for both groups; numbers of byte lists; -1 is no square as q is 3 modulo 4 |
| C80 | positions in the file, `read_g1_powers`, `read_g2_powers`, `read_subaccumulator`, `read_kzg_proof` | offsets of the parts; induction over the loop with the rest of the file; the length of the powers is a parameter |
| C81 | serialisation of `Accumulator` and `Proof`, `NonZero` | the readers compose: each leaves the rest of the input |
| C82 | `VecAccountMap`, `AccountTable`, `path_string`, `xpr_secret_key` | decimal numerals are parsed back; induction over the creations of accounts |
| C83 | `Window`, `PrecomputedBaseTable`, `select_from_table`, `fixed_base_scalar_mul` | invariant of the rounds: the result is the multiple by the bits read so far |
| C84 | `assert_within_range`, `UnsignedInteger`, `select`, `swap`, `Rem`, `modulus_is_smaller` | inversion of a satisfied run for all tapes of witnesses; honest tapes for completeness |
| C85 | `initialize`, `specialize_to_phase_2`, `add_dummy_constraints` | orthogonality of roots of unity gives Lagrange interpolation in the exponent; division by X^n - 1 for completeness |
| C86 | `hash_var`, `allocate_path`, `verify_var`, `assert_valid_var` | a circuit `always` has a property if it can be satisfied and every satisfying assignment gives it; composition of such circuits; descent from the root along the path |
| C87 | `send_next`, `spawned`, `poll`, `exec` | inductive invariant of the transition system; a measure that every step decreases; case analysis for progress |
| C88 | `seed_of`, `sample_fq`, `sample_point`, `fuzz_u8`, `fuzz_big`, `fuzz_field` | induction on the turns; arithmetic of masks and limbs; comparison of bits; an odd modulus does not divide a power of two |
| C89 | `update`, `ark_read`, `ark_read_exact`, `ark_write`, `ark_write_all`, `decode`, `encode` | induction on programs against relations on the underlying reader and writer |
| C90 | `download`, `download_if_invalid`, `build`, `get` | case analysis; induction on attempts and on files |
| C91 | `lines`, `split`, `checksum_of`, `parse_checkfile` | induction on text; the specification writes the file |

## Not modelled

* Merkle trees: `usize` wrap-around; the hash-map variant of the inner map beyond its get/set/remove contract;
  serialisation of trees; the pointer family `NoPointer`, trunks over trees that are not partial, and concurrent use of
  one trunk through `Arc`.
* Accounting: key derivation, addresses and viewing keys; contents of posts other than assets, identifiers,
  accounts and membership proofs; the wallet front end's network layer; `sbt_sync`
  of the wallet.
* Accounts: the parser of paths is that of the crate `bip32`, transcribed by its documentation; its derivation is a
  parameter. Mnemonics.
* Multiplication: a variable is its value; `scalar_mul_le` of arkworks by its contract. Tables larger than the memory.
* `initialize` (C85): the synthesis and `to_matrices` are an input; `Radix2EvaluationDomain::new` and `ifft` of arkworks by
  their contracts (`root_of_order`). The prover and verifier of Groth16 are those of `ItSpec.v`, not of the code; knowledge
  soundness of Groth16 is not claimed.
* Circuits of hashes and paths (C86): `FpVar` and `Boolean` of arkworks (product, `pow_by_constant`, `is_eq`, selection) are
  written down with the witnesses and constraints of r1cs-std 0.3; that a constraint system contains exactly these is trusted.
* Parallel selection (C87): channels of crossbeam and jobs of rayon by their contracts; a consumer that drops the iterator
  before its end; panics of the iterators.
* Sampling and fuzzing (C88): a generator is the list of the words it will give, and the loops have a bound on their turns;
  a field element is found if an accepted block comes (`c88_field_found`), that one comes is not proved; ChaCha20, `gen_range`, and the functions of arkworks for points (coordinates to points, cofactor,
  zero) are parameters or not modelled; `div_rem` is taken as the remainder. A sampled element is its Montgomery representation.
* Readers and writers for arkworks (C89): the (de)serializers of arkworks are any programs, those for decoding assumed to end
  with an error when a read does (`strict`); that arkworks' own are so is not proved. Panics of the readers and writers of
  `manta-util` are errors here.
* Parameters (C90): BLAKE3 is any function; answers of servers are bytes and whether they were complete; opening and reading a
  file is assumed to succeed; URLs, hidden and ignored files are not modelled. The checkfile (C91) is a list of
  bytes; UTF-8 and the escapes that `b3sum` writes for unusual names are not modelled.
* Gadgets (C84): arkworks' `to_bits_le` is modelled with its witnesses, its comparison with the modulus and `enforce_cmp`
  by their contracts; one witness is one value of the tape; constants are treated as variables. `UnsignedInteger::mul` has
  no instance for `FpVar` in the repository.
* Constraints: synthesis to R1CS and the gadgets of hashes, group, bits and encryption (each is taken to compute its
  native function; a comparison is taken to decide equality); the setup of the proof system; that header and light
  notes are not constrained is part of the model.
* Signer: the key is fixed; encryption randomness in nullifiers (equality looks at the commitment only).
* Ledger: test-only unchecked inserts, serialisation, the lock around the ledger and the HTTP connection.
* Codec: `IoReader` over a source that returns everything it has and then reports the end.
* Note encryption: only the native compiler `()`; field, permutation, group, AES-GCM and key hash are
  parameters.
* Containers: PBKDF2, ChaCha20-Poly1305, AES-256-GCM and the generators are parameters; zeroisation;
  I/O errors other than the end of the input; `Vec::with_capacity(n)` has capacity exactly `n`.
* Files: opening files and the operating system; iterators of unknown length; a file is its list of bytes.
* Authorization: the hash, the curve and the encoding of messages are parameters; draws are arguments. The laws of the
  curve are assumed for multiples of the generator only.
* Setup: curve arithmetic, the hash into the second group, the challenge, sampling and encodings are parameters or left
  out; the groups are assumed to be of prime order with a non-degenerate pairing (`check_state` of the coordinator
  tests this for decoded points, the program `groth16_phase2_verifier` does not); `initialize` and
  `specialize_to_phase_2`. Random scalars of the verifier are arguments of the model.
* Powers of tau files: arkworks' square roots (contract `sqrt1_ok`, `sqrt2_ok`: a root if there is one), its subgroup
  tests (a parameter), `from_be_bytes_mod_order` as reduction of the number; the encoding by arkworks in `response`
  (`ArkworksSerialization`) and the hashers of the ceremony; with the feature "rayon" which of several errors is returned.
  The base field of BN254 is shown to be prime and 3 modulo 4 (`bnq_good`). The errors `ExtraYCoordinate` and
  `ExpectedCompressed` are never returned (`c79_decode`).
* Poseidon: the circuit version of the permutation; `is_symmetric`, construction of matrices with checks of shape; the
  domain tags (an argument). Outside of the build the model was run over BLS12-381 (with its order proved prime in the
  same way) and gave the values of the repository's own vectors: all 189 of `lfsr_values`, `mds_hardcoded_tests/width3`
  and `permutation_hardcoded_test/width3`; the first four of `lfsr_values` are `c72_vectors`.
* Ceremony: requests cancelled when a connection drops; that `save_registry` opens its file
  without truncating it (the model writes whole files); HTTP. Each critical section is one step.

## Disagreements found between the code and what a user would expect

These are the `_refuted` theorems; the note of each claim in `MANIFEST.json` says in one sentence what goes wrong.
Observations without a property of their own:

* `TransferPost::encode` omits the sink accounts (C33); they are covered by the signature only.
* `FullNullifier` enters the proof input as its commitment only, so an outgoing note can be replaced without
  invalidating the proof (the signature covers it).
* `cocoon::File::read` reports the end of a file as the error `TooShort`, never as `None`.
* `File::load` does not look at what follows the value in the file.
* `groth16_phase2_verifier` decodes states without the checks of the curve and of the subgroup.
* The nonce of the fixed-nonce AES notes is constant; safety rests on the freshness of the ephemeral key.

## Corrections of the model

Places where an earlier version of the model disagreed with the code and was changed:

* `extend_digests`: the model let an extension fill a tree exactly; the code panics there, because
  `maybe_push_digest` answers `Some(false)` on a full tree before it asks the iterator. This adds
  `c07_full_merge_refuted` and property C56.

## Mutation tests

`seeded/mutations/*.py` lists wrong programs as edits of model definitions; `tools/mutate.py` applies each to a
scratch copy, rebuilds everything that depends on it and records in `seeded/LOG.jsonl` which theorems fail. A
lemma whose proof no longer passes is admitted in the scratch copy so that the build can go on (nothing of this
enters `rocq/theories`); `failed` lists these, and `claims_lost` the property theorems that then rest on an
admitted lemma. What is recorded is therefore that a *proof* no longer passes. For most mutations the statement
itself is false of the wrong program, but this is not established separately; an `Example` or a `_refuted`
theorem in the list did fail by computation.

Until property C85 the line of an attempt was removed from the log when no theorem failed (the wrong program does not
differ where the theorems speak, or the theorems were then tightened and the edit run again) or when the run did not
finish (a proof that does not end, or an edit that changes the arguments of a definition). These lines were put
back from the record of the runs and are marked `restored`, with the reason in `outcome`; for them the names of
the proofs that failed before the run stopped are not known, and attempts whose output was not recorded may be missing.

## Trusted base

* Coq 8.16.1: its kernel, including the virtual machine (`vm_compute` is used for witnesses and examples).
* The hand transcription of the Rust code into Gallina, within the limits listed above.
* The Coq standard library. No axiom is used by any theorem of the manifest: the table below is what
  `Print Assumptions` prints. (A checker that lists the axioms present in loaded libraries also shows those of
  `Coq.ssr.ssrunder`, which most modules of the standard library load (`Arith` and `List` among them); no theorem depends on them.)

