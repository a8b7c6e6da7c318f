(** Independent description of the container format and of what an authenticated cipher promises. *)
From Coq Require Import List NArith Lia Bool Arith.
From Verif Require Import CoModel.
Import ListNotations.
Open Scope nat_scope.

(** The number written big-endian in eight consecutive bytes starting at [i]. *)
Definition be64_at (buf : list N) (i : nat) : N :=
  (fold_left (fun acc j => acc * 256 + nth (i + j) buf 0) (seq 0 8) 0)%N.

(** [field buf i f]: the bytes of [f] stand in [buf] from position [i] on. *)
Definition field (buf : list N) (i : nat) (f : list N) : Prop :=
  forall j x, nth_error f j = Some x -> nth_error buf (i + j) = Some x.

(** The published layout of a container header (table in header.rs L137-L146). *)
Definition header_layout (buf : list N) (h : header) : Prop :=
  44 <= length buf /\
  field buf 0 [127; 192; 10]%N /\
  nth_error buf 3 = Some 1%N /\
  nth_error buf 4 = Some (match c_cipher (h_config h) with Chacha20Poly1305 => 1 | Aes256Gcm => 2 end)%N /\
  nth_error buf 5 = Some 1%N /\
  nth_error buf 6 = Some (match c_variant (h_config h) with Strong => 1 | Weak => 2 end)%N /\
  length (h_salt h) = 16 /\ field buf 8 (h_salt h) /\
  length (h_nonce h) = 12 /\ field buf 24 (h_nonce h) /\
  h_length h = be64_at buf 36.

(** A header as the program holds it in memory: arrays of fixed size and a 64-bit length. *)
Definition header_ok (h : header) : Prop :=
  length (h_salt h) = 16 /\ length (h_nonce h) = 12 /\ (h_length h < 2 ^ 64)%N.

(** The layout of a mini header (table in header.rs L266-L271). *)
Definition mini_layout (buf : list N) (h : mini_header) : Prop :=
  20 <= length buf /\ length (m_nonce h) = 12 /\ field buf 0 (m_nonce h) /\ m_length h = be64_at buf 12.

(** Laws of an authenticated cipher with detached tags. [aead_ok]: what was sealed opens again, the
    ciphertext is as long as the data and the tag is 16 bytes. [aead_tight]: what opens is what sealing
    the result gives (decryption recomputes the tag and compares it). *)
Definition aead_ok (seal : cipher -> bytes -> bytes -> bytes -> bytes -> option (bytes * bytes))
    (open : cipher -> bytes -> bytes -> bytes -> bytes -> bytes -> option bytes) : Prop :=
  forall c k n a d ct tag, seal c k n a d = Some (ct, tag) ->
    length ct = length d /\ length tag = 16 /\ open c k n a ct tag = Some d.
Definition aead_tight (seal : cipher -> bytes -> bytes -> bytes -> bytes -> option (bytes * bytes))
    (open : cipher -> bytes -> bytes -> bytes -> bytes -> bytes -> option bytes) : Prop :=
  forall c k n a ct tag d, open c k n a ct tag = Some d -> seal c k n a d = Some (ct, tag).

(** A generator hands out as many bytes as it is asked for. *)
Definition fill_ok {Rng} (fill : Rng -> nat -> bytes * Rng) : Prop :=
  forall r n, length (fst (fill r n)) = n.

(** Both ciphers encrypt by adding a keystream that depends on the key and the nonce alone. *)
Definition is_stream (seal : cipher -> bytes -> bytes -> bytes -> bytes -> option (bytes * bytes))
    (stream : cipher -> bytes -> bytes -> nat -> N) : Prop :=
  forall c k n a d ct tag, seal c k n a d = Some (ct, tag) ->
    forall i x y, nth_error d i = Some x -> nth_error ct i = Some y -> y = N.lxor x (stream c k n i).
