# Design of the formal model of manta-rs

Everything lives in `rocq/theories` (logical name `Verif`). The code in `/repo` is read as text; nothing is
built or run from it. Each model definition cites the Rust file and lines it follows.

## Layout

| file | contents |
|---|---|
| `*Model.v` | executable Gallina transcription of the Rust functions, no proofs |
| `*Spec.v` | small independent specification used in the theorem statements |
| `*Props.v` | the property theorems with `Print Assumptions` and non-vacuity `Example`s |
| `*Inst.v` | small executable instances of the abstract cryptography, used to run the model |
| others | lemmas and invariants |

| area | models | properties |
|---|---|---|
| `Mt*` | Merkle trees: nodes, inner tree, paths, full and single-path trees | C01-C05 |
| `Pt*`, `Fk*`, `Fo*` | partial trees with pruning (C06), forked trees (C07), forests (C08, C09) | C06-C09 |
| `Ex*`, `Tk*` | extension by iterators, trunks and forks | C56, C57 |
| `Asset*` | asset lists and maps, coin selection, balances, normalisation, consolidation | C10-C13, C18, C48 |
| `Ck*`, `Sg*` | checkpoints, pruning of replies, synchronisation of the signer | C14, C19, C20 |
| `Sn*` | signing: joins, final senders, to-public and private posts, estimates | C15-C17, C21 |
| `Wa*` | the wallet around the signer: balances, checkpoints, restart, balance check | C53 |
| `Ee*` | from the signer to the ledger and back: posts as the ledger sees them, sessions | C54, C55 |
| `Lg*` | validation and posting of transfers, simulated ledger, ledger reads | C22-C29 |
| `Ci*` | validity constraints of transfers, conservation of the private pool | C58, C59 |
| `Id*` | identity proofs | C60 |
| `Codec*` | byte readers, writers, encoders and decoders, transfer post encodings | C30-C33, C47 |
| `Dx*` | duplex sponge, note encryption, converters, opening of notes | C34, C49, C50 |
| `Co*` | encrypted containers (the vendored `cocoon` crate) | C35, C36, C51 |
| `Fs*` | encrypted files with their serde format | C36, C37, C52 |
| `Cer*` | trusted-setup ceremony server as a transition system, disk and recovery | C38-C46 |
| `AlgBase` | fields, groups with scalars and pairings as records of operations and laws; the field with 17 elements | |
| `Mp*` | contributions to a Groth16 key (phase two of the setup) | C61-C63 |
| `Kz*` | powers of tau (phase one of the setup) | C64, C65 |
| `Px*` | Poseidon: matrices, their generation and factorization, compressed constants, the permutation and the hash | C66-C71 |
| `Lf*` | the generator of Poseidon's round constants | C72 |
| `Pr*` | primality certificates, fields of prime order, BN254 and the configured Poseidon | C73 |
| `Au*` | authorization: keys, Schnorr signatures, the signature of a post | C74-C76 |
| `Td*` | data of transactions: reading posts back, signing with data | C77 |
| `Is*` | initial synchronisation of signer and wallet | C78 |
| `Ps*` | Perpetual Powers of Tau: encoding of points, files, accumulators and proofs | C79-C81 |
| `Ky*` | account map and table, paths of keys | C82 |
| `Wm*` | selection from tables, windowed and fixed-base multiplication | C83 |
| `Gd*` | circuits run on a tape of witnesses: ranges, unsigned integers, selection, remainder | C84 |
| `It*` | start of phase 2: Groth16 parameters from powers of tau | C85 |
| `Pc*` | Poseidon and Merkle paths as circuits, down to constraints | C86 |
| `Sa*` | selection from iterators in parallel: tasks, listener and consumer as a transition system | C87 |
| `Fz*` | sampling for the powers of tau from words of a generator, the seed of `hash_to_group`, fuzzing | C88 |
| `Ak*` | readers and writers for arkworks, (de)serializers as programs that continue with what they get | C89 |
| `Dl*` | download and checksums of parameters, the build script | C90 |
| `Cf*` | the checkfile of the parameters | C91 |
