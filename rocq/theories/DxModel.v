(** Model of note encryption: the duplex sponge of manta-crypto with the block types of
    manta-pay, the converters of manta-pay's configuration, hybrid encryption over
    Diffie-Hellman, the fixed-nonce AES notes and the opening of notes.

    The field, the permutation, the group, AES-GCM, the byte encoding of field elements and
    the key hash are parameters of the sections below; what the theorems require of them is
    written in the theorems.  Only the native (non-circuit) compiler [()] is modelled. *)
From Coq Require Import List NArith Arith Bool.
Import ListNotations.

(** A computation which may panic. *)
Inductive res (A : Type) : Type := Ret (a : A) | Panic.
Arguments Ret {A} a.
Arguments Panic {A}.

Definition bind {A B} (x : res A) (f : A -> res B) : res B :=
  match x with Ret a => f a | Panic => Panic end.
Notation "'let*' p ':=' x 'in' e" := (bind x (fun p => e)) (at level 61, p pattern, right associativity).

(** manta-util/src/vec.rs L76-93 [padded_chunks_with]: the exact chunks followed by one more
    chunk, the remainder padded with the default; [chunks_exact] panics on width 0. *)
Definition padded_chunks_with {A} (d : A) (l : list A) (width : nat) : res (list (list A)) :=
  if width =? 0 then Panic
  else
    let n := length l / width in
    let remainder := skipn (n * width) l in
    Ret (map (fun i => firstn width (skipn (i * width) l)) (seq 0 n)
         ++ [remainder ++ repeat d (width - length remainder)]).

Section Duplex.
Variable F : Type.
Variable fzero : F.
Variables fadd fsub : F -> F -> F.
Variable feqb : F -> F -> bool.
(** [PseudorandomPermutation::permute] on the Poseidon state: manta-pay/src/crypto/poseidon/mod.rs
    [Permutation]; a state is the list of its WIDTH elements. *)
Variable permute : list F -> list F.
(** [S::WIDTH] *)
Variable WIDTH : nat.

(** The common loop of [SetupBlock::write] and [PlaintextBlock::write]
    (manta-pay/src/crypto/poseidon/encryption.rs L97-99, L158-160): adds element i of the block
    to element i of the rate; [self.0[i]] panics on a block which is too short, and the
    elements of a block which is too long are not read. *)
Fixpoint add_block (rate block : list F) : res (list F) :=
  match rate, block with
  | [], _ => Ret []
  | _ :: _, [] => Panic
  | s :: rate', x :: block' => let* r := add_block rate' block' in Ret (fadd s x :: r)
  end.

(** encryption.rs L96-100 [SetupBlock::write]; the first state element is skipped. *)
Definition write_setup (block st : list F) : res (list F * unit) :=
  match st with
  | [] => Ret ([], tt)
  | k :: rate => let* r := add_block rate block in Ret (k :: r, tt)
  end.

(** encryption.rs L157-162 [PlaintextBlock::write]: the output block is the new rate. *)
Definition write_plain (block st : list F) : res (list F * list F) :=
  match st with
  | [] => Ret ([], [])
  | k :: rate => let* r := add_block rate block in Ret (k :: r, r)
  end.

(** The loop of [CiphertextBlock::write], encryption.rs L271-274: new rate and plaintext. *)
Fixpoint take_block (rate block : list F) : res (list F * list F) :=
  match rate, block with
  | [], _ => Ret ([], [])
  | _ :: _, [] => Panic
  | s :: rate', c :: block' =>
      let* (r, p) := take_block rate' block' in Ret (c :: r, fsub c s :: p)
  end.

(** encryption.rs L269-276 [CiphertextBlock::write] *)
Definition write_cipher (block st : list F) : res (list F * list F) :=
  match st with
  | [] => Ret ([], [])
  | k :: rate => let* (r, p) := take_block rate block in Ret (k :: r, p)
  end.

(** manta-crypto/src/permutation/sponge.rs L80-89 [Sponge::absorb] *)
Definition absorb {B O} (write : B -> list F -> res (list F * O)) (b : B) (st : list F)
  : res (list F * O) :=
  let* (st', o) := write b st in Ret (permute st', o).

(** sponge.rs L92-105 [Sponge::absorb_all] *)
Fixpoint absorb_all {B O} (write : B -> list F -> res (list F * O)) (bs : list B) (st : list F)
  : res (list F * list O) :=
  match bs with
  | [] => Ret (st, [])
  | b :: bs' =>
      let* (st1, o) := absorb write b st in
      let* (st2, os) := absorb_all write bs' st1 in
      Ret (st2, o :: os)
  end.

(** encryption.rs L498-501 [Tag::read] *)
Definition read_tag (st : list F) : res F :=
  match nth_error st 1 with Some x => Ret x | None => Panic end.

(** encryption.rs L680-694 [Setup::setup] of [FixedEncryption]; [S::WIDTH - 1] underflows on
    width 0, which panics (as does width 1, by the width of the chunks). *)
Definition setup_blocks (key header : list F) : res (list (list F)) :=
  let* k := padded_chunks_with fzero key (WIDTH - 1) in
  let* h := padded_chunks_with fzero header (WIDTH - 1) in
  Ret (k ++ h).

(** manta-crypto/src/permutation/duplex.rs L256-264 [Duplexer::setup]; [init] is
    [FixedEncryption::initial_state] (encryption.rs L674-677). *)
Definition dsetup (init key header : list F) : res (list F) :=
  let* bs := setup_blocks key header in
  let* (st, _) := absorb_all write_setup bs init in
  Ret st.

(** duplex.rs L269-283 [duplex_encryption].  Plaintext and ciphertext are [BlockArray]s of one
    length N fixed by the type; here the list carries the length. *)
Definition duplex_encryption (init key header : list F) (plaintext : list (list F))
  : res (F * list (list F)) :=
  let* st := dsetup init key header in
  let* (st', c) := absorb_all write_plain plaintext st in
  let* t := read_tag st' in
  Ret (t, c).

(** duplex.rs L288-302 [duplex_decryption] *)
Definition duplex_decryption (init key header : list F) (ciphertext : list (list F))
  : res (F * list (list F)) :=
  let* st := dsetup init key header in
  let* (st', p) := absorb_all write_cipher ciphertext st in
  let* t := read_tag st' in
  Ret (t, p).

(** duplex.rs L130-136 [Ciphertext] *)
Record ciphertext := Ciphertext { c_tag : F; c_message : list (list F) }.

(** duplex.rs L449-463 [encrypt]; the randomness is ignored. *)
Definition encrypt (init key header : list F) (plaintext : list (list F)) : res ciphertext :=
  let* (t, c) := duplex_encryption init key header plaintext in
  Ret (Ciphertext t c).

(** duplex.rs L472-486 [decrypt] with encryption.rs L705-712 [Verify::verify] *)
Definition decrypt (init key header : list F) (c : ciphertext) : res (bool * list (list F)) :=
  let* (t, p) := duplex_decryption init key header (c_message c) in
  Ret (feqb (c_tag c) t, p).
End Duplex.

Arguments Ciphertext {F} _ _.
Arguments c_tag {F} _.
Arguments c_message {F} _.

(** Little-endian bytes of an integer, [u128::to_le_bytes] and [u128::from_le_bytes]. *)
Fixpoint le_bytes (n : nat) (v : N) : list N :=
  match n with O => [] | S k => N.modulo v 256 :: le_bytes k (N.div v 256) end.
Fixpoint of_le_bytes (bs : list N) : N :=
  match bs with [] => 0%N | b :: r => (b + 256 * of_le_bytes r)%N end.

Section Notes.
Variable F : Type.
Variable fzero : F.
Variables fadd fsub : F -> F -> F.
Variable feqb : F -> F -> bool.
(** [F::from(u128)] and the integer value of a field element ([into_repr]). *)
Variable of_u128 : N -> F.
Variable fval : F -> N.
(** [Encode]/[Decode] of [Fp] (manta-crypto/src/arkworks/constraint/fp.rs L99-134), as used by
    [to_vec] and [from_vec]: 32 bytes; decoding fails on bytes of a non-canonical element. *)
Variable fenc : F -> list N.
Variable fdec : list N -> option F.

(** The group: scalar multiplication, coordinates, generator. *)
Variables G Sc : Type.
Variable smul : G -> Sc -> G.
Variable gen : G.
Variables gx gy : G -> F.

(** AES-256-GCM under the fixed nonce and an empty header, and Blake2s of the encoded group
    element (manta-pay/src/config/utxo.rs L911-916, L943-948). *)
Variable Key : Type.
Variable aes_enc : Key -> list N -> list N.
Variable aes_dec : Key -> list N -> option (list N).
Variable khash : G -> Key.

(** manta-crypto/src/algebra/diffie_hellman.rs L183-244: [derive_ephemeral],
    [generate_secret], [reconstruct_secret] *)
Definition derive_ephemeral (esk : Sc) : G := smul gen esk.
Definition generate_secret (pk : G) (esk : Sc) : G := smul pk esk.
Definition reconstruct_secret (epk : G) (sk : Sc) : G := smul epk sk.

(** manta-crypto/src/encryption/hybrid.rs L448-473 [Hybrid::encrypt], over any base scheme *)
Definition hybrid_encrypt {P C} (base : G -> P -> res C) (pk : G) (esk : Sc) (p : P) : res (G * C) :=
  let* c := base (generate_secret pk esk) p in
  Ret (derive_ephemeral esk, c).

(** hybrid.rs L481-499 [Hybrid::decrypt] *)
Definition hybrid_decrypt {C D} (base : G -> C -> res D) (sk : Sc) (c : G * C) : res D :=
  base (reconstruct_secret (fst c) sk) (snd c).

(** manta-accounting/src/asset.rs [Asset] and protocol.rs [IncomingPlaintext] *)
Record asset := Asset { a_id : F; a_value : N }.
Record incoming := Incoming { i_rand : F; i_asset : asset }.

(** manta-crypto/src/arkworks/ff.rs L33-43 [try_into_u128] *)
Definition try_into_u128 (x : F) : option N :=
  if (fval x <? 2 ^ 128)%N then Some (fval x) else None.

(** manta-pay/src/config/utxo.rs L672-684 [IncomingEncryptionSchemeConverter::as_target] *)
Definition incoming_as_target (p : incoming) : list (list F) :=
  [[i_rand p; a_id (i_asset p); of_u128 (a_value (i_asset p))]].

(** utxo.rs L717-732 [IncomingEncryptionSchemeConverter::into_source] *)
Definition incoming_into_source (t : bool * list (list F)) : option incoming :=
  if fst t then
    match snd t with
    | [[x; y; z]] =>
        match try_into_u128 z with Some v => Some (Incoming x (Asset y v)) | None => None end
    | _ => None
    end
  else None.

(** utxo.rs L615-617, L644-646: the key is the pair of coordinates *)
Definition poseidon_key (g : G) : list F := [gx g; gy g].

(** utxo.rs L749-758 [IncomingBaseEncryptionScheme] on [FixedDuplexer<1, Poseidon3>]
    (width 4); the header is empty (utxo.rs L586-589). *)
Definition incoming_base_encrypt (permute : list F -> list F) (init : list F) (g : G) (p : incoming)
  : res (ciphertext F) :=
  encrypt F fzero fadd permute 4 init (poseidon_key g) [] (incoming_as_target p).
Definition incoming_base_decrypt (permute : list F -> list F) (init : list F) (g : G) (c : ciphertext F)
  : res (option incoming) :=
  let* t := decrypt F fzero fadd fsub feqb permute 4 init (poseidon_key g) [] c in
  Ret (incoming_into_source t).

(** manta-pay/src/crypto/encryption/aes.rs L104-118, L123-135 [FixedNonceAesGcm] with plaintext
    size [psize]: [Array::from_unchecked] panics on a vector of another length. *)
Definition aes_encrypt (psize : nat) (k : Key) (m : list N) : res (list N) :=
  let c := aes_enc k m in
  if length c =? psize + 16 then Ret c else Panic.
Definition aes_decrypt (psize : nat) (k : Key) (c : list N) : res (option (list N)) :=
  match aes_dec k c with
  | Some m => if length m =? psize then Ret (Some m) else Panic
  | None => Ret None
  end.

(** [bytes[a..b]]: panics out of range *)
Definition slice (l : list N) (a b : nat) : res (list N) :=
  if b <=? length l then Ret (firstn (b - a) (skipn a l)) else Panic.

(** [Fp::from_vec(..).expect(..)] *)
Definition from_vec_expect (bs : list N) : res F :=
  match fdec bs with Some x => Ret x | None => Panic end.

(** utxo.rs L975-990 [IncomingAESConverter::as_target] *)
Definition light_as_target (p : incoming) : res (list N) :=
  let t := fenc (i_rand p) ++ fenc (a_id (i_asset p)) ++ le_bytes 16 (a_value (i_asset p)) in
  if length t =? 80 then Ret t else Panic.

(** utxo.rs L1011-1031 [IncomingAESConverter::into_source] *)
Definition light_into_source (t : option (list N)) : res (option incoming) :=
  match t with
  | None => Ret None
  | Some bytes =>
      let* rb := slice bytes 0 32 in
      let* ib := slice bytes 32 64 in
      let* vb := slice bytes 64 80 in
      let* r := from_vec_expect rb in
      let* i := from_vec_expect ib in
      Ret (Some (Incoming r (Asset i (of_le_bytes vb))))
  end.

(** utxo.rs L1044-1053 [IncomingBaseAES] *)
Definition light_base_encrypt (g : G) (p : incoming) : res (list N) :=
  let* t := light_as_target p in
  aes_encrypt 80 (khash g) t.
Definition light_base_decrypt (g : G) (c : list N) : res (option incoming) :=
  let* t := aes_decrypt 80 (khash g) c in
  light_into_source t.

(** utxo.rs L1726-1739 [OutgoingAESConverter::as_target] *)
Definition outgoing_as_target (a : asset) : res (list N) :=
  let t := fenc (a_id a) ++ le_bytes 16 (a_value a) in
  if length t =? 48 then Ret t else Panic.

(** utxo.rs L1761-1778 [OutgoingAESConverter::into_source] *)
Definition outgoing_into_source (t : option (list N)) : res (option asset) :=
  match t with
  | None => Ret None
  | Some bytes =>
      let* ib := slice bytes 0 32 in
      let* vb := slice bytes 32 48 in
      let* i := from_vec_expect ib in
      Ret (Some (Asset i (of_le_bytes vb)))
  end.

(** utxo.rs L1790-1799 [OutgoingBaseAES] *)
Definition outgoing_base_encrypt (g : G) (a : asset) : res (list N) :=
  let* t := outgoing_as_target a in
  aes_encrypt 48 (khash g) t.
Definition outgoing_base_decrypt (g : G) (c : list N) : res (option asset) :=
  let* t := aes_decrypt 48 (khash g) c in
  outgoing_into_source t.

(** manta-accounting/src/transfer/utxo/protocol.rs L1187-1197: the light incoming note made
    for a receiving key *)
Definition light_note (receiving_key : G) (esk : Sc) (p : incoming) : res (G * list N) :=
  hybrid_encrypt light_base_encrypt receiving_key esk p.

(** protocol.rs L1330-1340: the outgoing note made by a spend *)
Definition outgoing_note (receiving_key : G) (esk : Sc) (a : asset) : res (G * list N) :=
  hybrid_encrypt outgoing_base_encrypt receiving_key esk a.

(** protocol.rs [FullIncomingNote], without the Poseidon note, which [open] does not read *)
Record note := Note { n_partition : N; n_light : G * list N }.
(** [AddressPartitionFunction::partition] of the address made of a receiving key *)
Variable partition : G -> N.

(** protocol.rs L1403-1433 [NoteOpen::open]; [transparent] is [utxo.is_transparent] *)
Definition note_open (dk : Sc) (transparent : bool) (n : note) : res (option ((bool * F) * asset)) :=
  if (partition (smul gen dk) =? n_partition n)%N then
    let* p := hybrid_decrypt light_base_decrypt dk (n_light n) in
    match p with
    | Some p => Ret (Some ((transparent, i_rand p), i_asset p))
    | None => Ret None
    end
  else Ret None.

(** protocol.rs L1378-1393 [NullifierOpen::open] and
    manta-accounting/src/transfer/utxo/mod.rs L102-111 [can_be_opened] *)
Definition nullifier_open (dk : Sc) (outgoing : G * list N) : res (option asset) :=
  hybrid_decrypt outgoing_base_decrypt dk outgoing.
Definition can_be_opened (dk : Sc) (outgoing : G * list N) : res bool :=
  let* a := nullifier_open dk outgoing in
  Ret (match a with Some _ => true | None => false end).

(** utxo/mod.rs L311-327 [open_with_check]; [utxo_check] is a parameter *)
Definition open_with_check (utxo_check : (bool * F) -> asset -> bool) (dk : Sc) (transparent : bool) (n : note)
  : res (option ((bool * F) * asset)) :=
  let* o := note_open dk transparent n in
  match o with
  | Some (i, a) => Ret (if utxo_check i a then Some (i, a) else None)
  | None => Ret None
  end.

(** manta-accounting/src/wallet/signer/functions.rs L226-260 [sync_with], the part reading the
    ledger's data: the nullifiers are filtered by [can_be_opened], then every note is opened in
    order.  Returns what was opened, [None] for the others. *)
Fixpoint open_nullifiers (dk : Sc) (ns : list (G * list N)) : res (list bool) :=
  match ns with
  | [] => Ret []
  | n :: r => let* b := can_be_opened dk n in let* bs := open_nullifiers dk r in Ret (b :: bs)
  end.
Fixpoint open_notes (utxo_check : (bool * F) -> asset -> bool) (dk : Sc) (ns : list (bool * note))
  : res (list (option ((bool * F) * asset))) :=
  match ns with
  | [] => Ret []
  | (t, n) :: r =>
      let* o := open_with_check utxo_check dk t n in
      let* os := open_notes utxo_check dk r in
      Ret (o :: os)
  end.
Definition sync_open (utxo_check : (bool * F) -> asset -> bool) (dk : Sc)
  (nulls : list (G * list N)) (notes : list (bool * note)) :=
  let* b := open_nullifiers dk nulls in
  let* o := open_notes utxo_check dk notes in
  Ret (b, o).
End Notes.
