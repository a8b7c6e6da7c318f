(** Model of the encrypted container format of the vendored [cocoon] crate
    (forks/cocoon/src: header.rs, format.rs, kdf.rs, lib.rs, mini.rs).

    External code, all of it section variables:
    - [kdf] is [pbkdf2::<Hmac<Sha256>>] as called by [kdf::pbkdf2::derive] (kdf.rs L14-L29);
    - [seal] / [open] are [encrypt_in_place_detached] / [decrypt_in_place_detached] of
      ChaCha20-Poly1305 and AES-256-GCM;
    - [from_seed] / [fill] are [StdRng::from_seed] and [RngCore::fill_bytes].
    Simplifications: [usize] is 64 bits wide, so [u64::try_from(usize)] and [u64 -> usize] never fail
    and [Error::TooLarge] does not occur; the only I/O error is the end of the input (writing always
    succeeds); [Vec::with_capacity(n)] has capacity exactly [n]; zeroisation of keys is left out. *)

From Coq Require Import List NArith Lia Bool Arith.
Import ListNotations.
Open Scope nat_scope.

(** Bytes are natural numbers; [wfb] says that every one of them is below 256. *)
Definition bytes := list N.
Definition wfb (bs : bytes) : Prop := Forall (fun b => (b < 256)%N) bs.

(** cocoon::Error, error.rs L2-L19 ([Io] only as the end of input, which becomes [TooShort], L21-L29). *)
Inductive error := UnrecognizedFormat | Cryptography | TooShort.

(** Outcome of a call: a value, an [Err], or a panic / abort of the program. *)
Inductive out (A : Type) := Ok (a : A) | Err (e : error) | Stop.
Arguments Ok {A} a. Arguments Err {A} e. Arguments Stop {A}.

Definition obind {A B} (x : out A) (f : A -> out B) : out B :=
  match x with Ok a => f a | Err e => Err e | Stop => Stop end.
Notation "'do' x <- e ; f" := (obind e (fun x => f)) (at level 60, x pattern, e at level 59, right associativity).

(** Little-endian bytes of an integer ([to_le_bytes]). *)
Fixpoint le (n : nat) (v : N) : bytes :=
  match n with O => [] | S k => N.modulo v 256 :: le k (N.div v 256) end.
Fixpoint un_le (bs : bytes) : N :=
  match bs with [] => 0%N | b :: r => (b + 256 * un_le r)%N end.
(** [u64::to_be_bytes] and [u64::from_be_bytes]. *)
Definition be (n : nat) (v : N) : bytes := rev (le n v).
Definition un_be (bs : bytes) : N := un_le (rev bs).

(** [slice bs i j] is [&bs[i..j]], for indices in range. *)
Definition slice (bs : bytes) (i j : nat) : bytes := firstn (j - i) (skipn i bs).
(** [bs[i]], for an index in range. *)
Definition byte_at (bs : bytes) (i : nat) : N := nth i bs 0%N.

Definition bytes_eqb : bytes -> bytes -> bool := fun a b => if list_eq_dec N.eq_dec a b then true else false.

(* ------------------------------------------------------------------------------------------- *)
(** * header.rs *)

(** CocoonCipher, header.rs L15-L23, with its discriminants. *)
Inductive cipher := Chacha20Poly1305 | Aes256Gcm.
Definition cipher_byte (c : cipher) : N := match c with Chacha20Poly1305 => 1%N | Aes256Gcm => 2%N end.

(** CocoonKdf, header.rs L25-L34. *)
Inductive kdf_kind := Pbkdf2.
Definition kdf_byte (k : kdf_kind) : N := match k with Pbkdf2 => 1%N end.

(** CocoonKdfVariant, header.rs L36-L41. *)
Inductive variant := Strong | Weak.
Definition variant_byte (v : variant) : N := match v with Strong => 1%N | Weak => 2%N end.

(** CocoonConfig, header.rs L49-L62; the reserved byte is always zero in memory. *)
Record config := { c_cipher : cipher; c_kdf : kdf_kind; c_variant : variant }.

(** CocoonConfig::default, header.rs L64-L73. *)
Definition default_config : config := {| c_cipher := Chacha20Poly1305; c_kdf := Pbkdf2; c_variant := Strong |}.

(** CocoonConfig::kdf_iterations, header.rs L84-L97. *)
Definition kdf_iterations (c : config) : N :=
  match c_kdf c with
  | Pbkdf2 => match c_variant c with Weak => 10000%N | Strong => 100000%N end
  end.

(** CocoonConfig::with_cipher and with_weak_kdf, header.rs L99-L107. *)
Definition with_cipher (c : config) (x : cipher) : config :=
  {| c_cipher := x; c_kdf := c_kdf c; c_variant := c_variant c |}.
Definition with_weak_kdf (c : config) : config :=
  {| c_cipher := c_cipher c; c_kdf := c_kdf c; c_variant := Weak |}.

(** CocoonConfig::serialize, header.rs L109-L116. *)
Definition config_serialize (c : config) : bytes :=
  [cipher_byte (c_cipher c); kdf_byte (c_kdf c); variant_byte (c_variant c); 0%N].

(** CocoonConfig::deserialize, header.rs L118-L134, with the [match_enum!] macro of L6-L13. *)
Definition config_deserialize (buf : bytes) : out config :=
  if length buf <? 4 then Err UnrecognizedFormat else
  do c <- (if N.eqb (byte_at buf 0) (cipher_byte Chacha20Poly1305) then Ok Chacha20Poly1305
           else if N.eqb (byte_at buf 0) (cipher_byte Aes256Gcm) then Ok Aes256Gcm
           else Err UnrecognizedFormat);
  do k <- (if N.eqb (byte_at buf 1) (kdf_byte Pbkdf2) then Ok Pbkdf2 else Err UnrecognizedFormat);
  do v <- (if N.eqb (byte_at buf 2) (variant_byte Weak) then Ok Weak
           else if N.eqb (byte_at buf 2) (variant_byte Strong) then Ok Strong
           else Err UnrecognizedFormat);
  Ok {| c_cipher := c; c_kdf := k; c_variant := v |}.

(** CocoonHeader, header.rs L147-L172; magic and version have one possible value each, kept as
    constants. *)
Record header := { h_config : config; h_salt : bytes; h_nonce : bytes; h_length : N }.

(** CocoonHeader::MAGIC and SIZE, header.rs L175-L177; CocoonVersion::Version1, L43-L47. *)
Definition magic : bytes := [127; 192; 10]%N.
Definition version1 : N := 1%N.
Definition header_size : nat := 44.

(** CocoonHeader::serialize_into, header.rs L217-L227, as the 44 bytes written. *)
Definition header_serialize (h : header) : bytes :=
  magic ++ [version1] ++ config_serialize (h_config h) ++ h_salt h ++ h_nonce h ++ be 8 (h_length h).

(** CocoonHeader::deserialize, header.rs L229-L263. *)
Definition header_deserialize (buf : bytes) : out header :=
  if length buf <? header_size then Err UnrecognizedFormat else
  if negb (bytes_eqb (slice buf 0 3) magic) then Err UnrecognizedFormat else
  if negb (N.eqb (byte_at buf 3) version1) then Err UnrecognizedFormat else
  do c <- config_deserialize (slice buf 4 8);
  Ok {| h_config := c; h_salt := slice buf 8 24; h_nonce := slice buf 24 36;
        h_length := un_be (slice buf 36 header_size) |}.

(** MiniCocoonHeader and its SIZE, header.rs L272-L284. *)
Record mini_header := { m_nonce : bytes; m_length : N }.
Definition mini_header_size : nat := 20.

(** MiniCocoonHeader::serialize_into, header.rs L305-L311. *)
Definition mini_header_serialize (h : mini_header) : bytes := m_nonce h ++ be 8 (m_length h).

(** MiniCocoonHeader::deserialize, header.rs L313-L328. *)
Definition mini_header_deserialize (buf : bytes) : out mini_header :=
  if length buf <? mini_header_size then Err UnrecognizedFormat else
  Ok {| m_nonce := slice buf 0 12; m_length := un_be (slice buf 12 mini_header_size) |}.

(* ------------------------------------------------------------------------------------------- *)
(** * format.rs *)

(** TAG_SIZE, MAX_SIZE, MINI_SIZE, format.rs L9-L14. *)
Definition tag_size : nat := 16.
Definition prefix_size : nat := header_size + tag_size.
Definition mini_prefix_size : nat := mini_header_size + tag_size.

(** FormatPrefix, format.rs L16-L19. *)
Record prefix := { p_header : header; p_raw : bytes }.

(** FormatPrefix::new, format.rs L27-L37. *)
Definition prefix_new (h : header) : prefix :=
  {| p_header := h; p_raw := header_serialize h ++ repeat 0%N tag_size |}.
(** FormatPrefix::serialize, format.rs L39-L47. *)
Definition prefix_serialize (p : prefix) (tag : bytes) : bytes := firstn header_size (p_raw p) ++ tag.
(** FormatPrefix::deserialize, format.rs L49-L67. *)
Definition prefix_deserialize (start : bytes) : out prefix :=
  do h <- header_deserialize start;
  if length start <? header_size + tag_size then Err UnrecognizedFormat else
  Ok {| p_header := h;
        p_raw := slice start 0 header_size ++ slice start header_size (header_size + tag_size) |}.
(** FormatPrefix::prefix and tag, format.rs L89-L95. *)
Definition prefix_prefix (p : prefix) : bytes := firstn header_size (p_raw p).
Definition prefix_tag (p : prefix) : bytes := slice (p_raw p) header_size (header_size + tag_size).

(** [Read::read_exact] of [n] bytes from the remaining input: the bytes and the rest, or the error
    [UnexpectedEof], which error.rs L21-L29 turns into [TooShort]. *)
Definition read_exact (n : nat) (input : bytes) : out (bytes * bytes) :=
  if length input <? n then Err TooShort else Ok (firstn n input, skipn n input).

(** FormatPrefix::deserialize_from, format.rs L69-L83. *)
Definition prefix_deserialize_from (input : bytes) : out (prefix * bytes) :=
  do (hd, input1) <- read_exact header_size input;
  do h <- header_deserialize (hd ++ repeat 0%N tag_size);
  do (tag, input2) <- read_exact tag_size input1;
  Ok ({| p_header := h; p_raw := hd ++ tag |}, input2).

(** MiniFormatPrefix, format.rs L105-L108. *)
Record mini_prefix := { mp_header : mini_header; mp_raw : bytes }.

(** MiniFormatPrefix::new, format.rs L113-L119. *)
Definition mini_prefix_new (h : mini_header) : mini_prefix :=
  {| mp_header := h; mp_raw := mini_header_serialize h ++ repeat 0%N tag_size |}.
(** MiniFormatPrefix::serialize, format.rs L121-L124. *)
Definition mini_prefix_serialize (p : mini_prefix) (tag : bytes) : bytes :=
  firstn mini_header_size (mp_raw p) ++ tag.
(** MiniFormatPrefix::deserialize, format.rs L126-L140. *)
Definition mini_prefix_deserialize (start : bytes) : out mini_prefix :=
  do h <- mini_header_deserialize start;
  if length start <? mini_prefix_size then Err UnrecognizedFormat else
  Ok {| mp_header := h;
        mp_raw := slice start 0 mini_header_size
                  ++ slice start mini_header_size (mini_header_size + tag_size) |}.
(** MiniFormatPrefix::deserialize_from, format.rs L142-L152. *)
Definition mini_prefix_deserialize_from (input : bytes) : out (mini_prefix * bytes) :=
  do (hd, input1) <- read_exact mini_header_size input;
  do h <- mini_header_deserialize (hd ++ repeat 0%N tag_size);
  do (tag, input2) <- read_exact tag_size input1;
  Ok ({| mp_header := h; mp_raw := hd ++ tag |}, input2).
(** MiniFormatPrefix::prefix and tag, format.rs L158-L164. *)
Definition mini_prefix_prefix (p : mini_prefix) : bytes := firstn mini_header_size (mp_raw p).
Definition mini_prefix_tag (p : mini_prefix) : bytes :=
  slice (mp_raw p) mini_header_size (mini_header_size + tag_size).

(* ------------------------------------------------------------------------------------------- *)
(** * lib.rs and mini.rs *)

(** [usize::MAX] on a 64-bit platform, and the largest buffer [Vec] hands out: any request above
    [isize::MAX] panics with "capacity overflow". *)
Definition usize_max : N := (2 ^ 64 - 1)%N.
Definition isize_max : N := (2 ^ 63 - 1)%N.

Section Cocoon.
  Variable kdf : bytes -> bytes -> N -> bytes.
  Variable seal : cipher -> bytes -> bytes -> bytes -> bytes -> option (bytes * bytes).
  Variable open : cipher -> bytes -> bytes -> bytes -> bytes -> bytes -> option bytes.
  Variable Rng : Type.
  Variable from_seed : bytes -> Rng.
  Variable fill : Rng -> nat -> bytes * Rng.
  (** Bytes the allocator can deliver in one piece; larger requests abort the program. *)
  Variable mem : N.

  (** [Vec::with_capacity(n)], followed by filling it: stops above [isize::MAX] (panic) and above the
      available memory (abort). *)
  Definition with_capacity (n : N) : out N :=
    if (isize_max <? n)%N || (mem <? n)%N then Stop else Ok n.

  (** RngVariant, lib.rs L289-L294: [Thread] is a handle to the thread's generator, [Std] an owned
      generator, [None] no generator at all. *)
  Inductive rng_variant := RThread | RStd (r : Rng) | RNone.

  (** Cocoon, lib.rs L419-L424. *)
  Record cocoon := { k_password : bytes; k_rng : rng_variant; k_config : config }.

  (** Cocoon::new, from_seed and parse_only, lib.rs L440-L447, L472-L479 and L576-L583. *)
  Definition cocoon_new (password : bytes) : cocoon :=
    {| k_password := password; k_rng := RThread; k_config := default_config |}.
  Definition cocoon_from_seed (password seed : bytes) : cocoon :=
    {| k_password := password; k_rng := RStd (from_seed seed); k_config := default_config |}.
  Definition cocoon_parse_only (password : bytes) : cocoon :=
    {| k_password := password; k_rng := RNone; k_config := default_config |}.

  (** The two draws of Cocoon::encrypt, lib.rs L718-L734. [th] is the thread's generator: cloning a
      [ThreadRng] copies the handle (the draw advances it), cloning a [StdRng] copies the generator
      (the draw advances the copy, which is then dropped). *)
  Definition draw (k : cocoon) (th : Rng) : out ((bytes * bytes) * Rng) :=
    match k_rng k with
    | RThread =>
        let (salt, th1) := fill th 16 in
        let (nonce, th2) := fill th1 12 in
        Ok ((salt, nonce), th2)
    | RStd r =>
        let (salt, r1) := fill r 16 in
        let (nonce, _) := fill r1 12 in
        Ok ((salt, nonce), th)
    | RNone => Stop
    end.

  (** Cocoon::encrypt, lib.rs L717-L762: the detached prefix and the data encrypted in place. *)
  Definition encrypt (k : cocoon) (th : Rng) (data : bytes) : out ((bytes * bytes) * Rng) :=
    do ((salt, nonce), th') <- draw k th;
    let h := {| h_config := k_config k; h_salt := salt; h_nonce := nonce;
                h_length := N.of_nat (length data) |} in
    let p := prefix_new h in
    let master_key := match c_kdf (k_config k) with
                      | Pbkdf2 => kdf salt (k_password k) (kdf_iterations (k_config k)) end in
    match seal (c_cipher (k_config k)) master_key nonce (prefix_prefix p) data with
    | None => Err Cryptography
    | Some (ct, tag) => Ok ((prefix_serialize p tag, ct), th')
    end.

  (** Cocoon::wrap, lib.rs L639-L655. *)
  Definition wrap (k : cocoon) (th : Rng) (data : bytes) : out (bytes * Rng) :=
    do ((pre, ct), th') <- encrypt k th data;
    Ok (pre ++ ct, th').

  (** Cocoon::dump, lib.rs L683-L690: the bytes sent to the writer. *)
  Definition dump (k : cocoon) (th : Rng) (data : bytes) : out (bytes * Rng) :=
    do ((pre, ct), th') <- encrypt k th data;
    Ok (pre ++ ct, th').

  (** Cocoon::decrypt_parsed, lib.rs L877-L915: the buffer after decryption in place. *)
  Definition decrypt_parsed (k : cocoon) (data : bytes) (p : prefix) : out bytes :=
    let h := p_header p in
    if (N.of_nat (length data) <? h_length h)%N then Err TooShort else
    let n := N.to_nat (h_length h) in
    let master_key := match c_kdf (h_config h) with
                      | Pbkdf2 => kdf (h_salt h) (k_password k) (kdf_iterations (h_config h)) end in
    match open (c_cipher (h_config h)) master_key (h_nonce h) (prefix_prefix p) (firstn n data)
            (prefix_tag p) with
    | None => Err Cryptography
    | Some d => Ok (d ++ skipn n data)
    end.

  (** Cocoon::unwrap, lib.rs L788-L802. The sum [prefix.size() + header.data_length()] overflows for
      the last 60 lengths: with overflow checks that is a panic, without them the wrapped sum passes the
      test and [Vec::with_capacity] of the length panics on L796; both are [Stop]. *)
  Definition unwrap (k : cocoon) (container : bytes) : out bytes :=
    do p <- prefix_deserialize container;
    let n := h_length (p_header p) in
    if (usize_max <? N.of_nat prefix_size + n)%N then Stop else
    if (N.of_nat (length container) <? N.of_nat prefix_size + n)%N then Err TooShort else
    do cap <- with_capacity n;
    decrypt_parsed k (slice container prefix_size (prefix_size + N.to_nat cap)) p.

  (** Cocoon::parse, lib.rs L833-L844: the value and the unread input. *)
  Definition parse (k : cocoon) (input : bytes) : out (bytes * bytes) :=
    do (p, input1) <- prefix_deserialize_from input;
    do cap <- with_capacity (h_length (p_header p));
    if (N.of_nat (length input1) <? cap)%N then Err TooShort else
    do (body, input2) <- read_exact (N.to_nat cap) input1;
    do d <- decrypt_parsed k body p;
    Ok (d, input2).

  (** Cocoon::decrypt, lib.rs L871-L875. *)
  Definition decrypt (k : cocoon) (data detached : bytes) : out bytes :=
    do p <- prefix_deserialize detached;
    decrypt_parsed k data p.

  (** MiniCocoon, mini.rs L24-L28. *)
  Record mini := { mk_key : bytes; mk_rng : Rng; mk_config : config }.

  (** MiniCocoon::from_key, mini.rs L97-L112: [copy_from_slice] panics unless both are 32 bytes. *)
  Definition mini_from_key (key seed : bytes) : out mini :=
    if (length key =? 32) && (length seed =? 32)
    then Ok {| mk_key := key; mk_rng := from_seed seed; mk_config := default_config |}
    else Stop.

  (** MiniCocoon::from_password, mini.rs L131-L143. *)
  Definition mini_from_password (password seed : bytes) : out mini :=
    let key := match c_kdf default_config with
               | Pbkdf2 => kdf seed password (kdf_iterations default_config) end in
    if length seed =? 32
    then Ok {| mk_key := key; mk_rng := from_seed seed; mk_config := default_config |}
    else Stop.

  (** MiniCocoon::with_cipher, mini.rs L158-L161. *)
  Definition mini_with_cipher (m : mini) (c : cipher) : mini :=
    {| mk_key := mk_key m; mk_rng := mk_rng m; mk_config := with_cipher (mk_config m) c |}.

  (** MiniCocoon::encrypt, mini.rs L264-L290. The generator is cloned, so [m] is unchanged. *)
  Definition mini_encrypt (m : mini) (data : bytes) : out (bytes * bytes) :=
    let (nonce, _) := fill (mk_rng m) 12 in
    let p := mini_prefix_new {| m_nonce := nonce; m_length := N.of_nat (length data) |} in
    match seal (c_cipher (mk_config m)) (mk_key m) nonce (mini_prefix_prefix p) data with
    | None => Err Cryptography
    | Some (ct, tag) => Ok (mini_prefix_serialize p tag, ct)
    end.

  (** MiniCocoon::wrap and dump, mini.rs L184-L200 and L233-L240. *)
  Definition mini_wrap (m : mini) (data : bytes) : out bytes :=
    do (pre, ct) <- mini_encrypt m data; Ok (pre ++ ct).
  Definition mini_dump (m : mini) (data : bytes) : out bytes :=
    do (pre, ct) <- mini_encrypt m data; Ok (pre ++ ct).

  (** MiniCocoon::decrypt_parsed, mini.rs L405-L439. *)
  Definition mini_decrypt_parsed (m : mini) (data : bytes) (p : mini_prefix) : out bytes :=
    let h := mp_header p in
    if (N.of_nat (length data) <? m_length h)%N then Err TooShort else
    let n := N.to_nat (m_length h) in
    match open (c_cipher (mk_config m)) (mk_key m) (m_nonce h) (mini_prefix_prefix p) (firstn n data)
            (mini_prefix_tag p) with
    | None => Err Cryptography
    | Some d => Ok (d ++ skipn n data)
    end.

  (** MiniCocoon::unwrap, mini.rs L316-L330; overflow as in [unwrap]. *)
  Definition mini_unwrap (m : mini) (container : bytes) : out bytes :=
    do p <- mini_prefix_deserialize container;
    let n := m_length (mp_header p) in
    if (usize_max <? N.of_nat mini_prefix_size + n)%N then Stop else
    if (N.of_nat (length container) <? N.of_nat mini_prefix_size + n)%N then Err TooShort else
    do cap <- with_capacity n;
    mini_decrypt_parsed m (slice container mini_prefix_size (mini_prefix_size + N.to_nat cap)) p.

  (** MiniCocoon::parse, mini.rs L365-L376. *)
  Definition mini_parse (m : mini) (input : bytes) : out (bytes * bytes) :=
    do (p, input1) <- mini_prefix_deserialize_from input;
    do cap <- with_capacity (m_length (mp_header p));
    if (N.of_nat (length input1) <? cap)%N then Err TooShort else
    do (body, input2) <- read_exact (N.to_nat cap) input1;
    do d <- mini_decrypt_parsed m body p;
    Ok (d, input2).

  (** MiniCocoon::decrypt, mini.rs L399-L403. *)
  Definition mini_decrypt (m : mini) (data detached : bytes) : out bytes :=
    do p <- mini_prefix_deserialize detached;
    mini_decrypt_parsed m data p.
End Cocoon.

Arguments RThread {Rng}. Arguments RStd {Rng} r. Arguments RNone {Rng}.
Arguments k_password {Rng} c. Arguments k_rng {Rng} c. Arguments k_config {Rng} c.
Arguments mk_key {Rng} m. Arguments mk_rng {Rng} m. Arguments mk_config {Rng} m.
