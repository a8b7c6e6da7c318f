(** * Readers and writers for arkworks
    Source: manta-crypto/src/arkworks/serialize.rs (lines 45-172), and its use in manta-crypto/src/arkworks/algebra.rs
    lines 288-323, groth16.rs lines 268-302 and 502-539, constraint/fp.rs lines 99-134, which all have the same shape. *)
From Coq Require Import List ZArith.
Import ListNotations.

Inductive res (A B : Type) : Type := Ok (a : A) | Err (b : B).
Arguments Ok {A B}. Arguments Err {A B}.

(** The kinds of [io::Error] that the adapters give: lines 89-90, 101-107. *)
Inductive io_error : Type := UnexpectedEof | Other.

(** Lines 64-75 and 134-145: [update], the same for readers and for writers. The old state is dropped on an error; nothing is
    done when there was one already. *)
Definition update {S E T} (f : S -> res (S * T) E) (state : res S E) : option T * res S E :=
  match state with
  | Ok s => match f s with Ok (s', v) => (Some v, Ok s') | Err e => (None, Err e) end
  | Err e => (None, Err e)
  end.

Section Reader.
(** [codec::Read] of manta-util: the reader, its error, [read] and [read_exact] for a buffer of the given length. The bytes are
    those put into the buffer; when the data end too early the reader stays usable and says how many bytes are missing. *)
Context {R E : Type}.
Inductive exact : Type := Exact (r : R) (bytes : list Z) | End (r : R) (missing : nat) | Broken (e : E).
Variable read : R -> nat -> res (R * list Z) E.
Variable read_exact : R -> nat -> exact.

(** Lines 87-91: [io::Read::read]. *)
Definition ark_read (n : nat) (state : res R E) : res (list Z) io_error * res R E :=
  match update (fun r => read r n) state with
  | (Some bytes, s) => (Ok bytes, s)
  | (None, s) => (Err Other, s)
  end.
(** Lines 93-108: [io::Read::read_exact]. *)
Definition ark_read_exact (n : nat) (state : res R E) : res (list Z) io_error * res R E :=
  match update (fun r => match read_exact r n with
                         | Exact r' bytes => Ok (r', Ok bytes)
                         | Broken e => Err e
                         | End r' missing => Ok (r', Err missing)
                         end) state with
  | (Some (Ok bytes), s) => (Ok bytes, s)
  | (Some (Err _), s) => (Err UnexpectedEof, s)
  | (None, s) => (Err Other, s)
  end.

(** A deserializer of arkworks: it asks for bytes and continues with what it gets. [D] is [SerializationError]. *)
Context {V D : Type}.
Inductive deserializer : Type :=
| Return (v : V)
| Fail (d : D)
| Read (n : nat) (k : res (list Z) io_error -> deserializer)
| ReadExact (n : nat) (k : res (list Z) io_error -> deserializer).
Fixpoint deserialize (p : deserializer) (state : res R E) : res V D * res R E :=
  match p with
  | Return v => (Ok v, state)
  | Fail d => (Err d, state)
  | Read n k => let '(a, s) := ark_read n state in deserialize (k a) s
  | ReadExact n k => let '(a, s) := ark_read_exact n state in deserialize (k a) s
  end.

(** algebra.rs lines 295-308 and the like: [DecodeError]. *)
Inductive decode_error : Type := ReadError (e : E) | DecodeError (d : D).
Definition decode (p : deserializer) (r : R) : res V decode_error :=
  match deserialize p (Ok r) with
  | (Ok v, Ok _) => Ok v
  | (Ok _, Err e) => Err (ReadError e)
  | (Err d, _) => Err (DecodeError d)
  end.
End Reader.

Section Writer.
(** [codec::Write] of manta-util: [write] returns the number of the bytes that were taken. *)
Context {W E : Type}.
Variable write : W -> list Z -> res (W * nat) E.

(** Lines 156-159: [io::Write::write]; [None] is the error. *)
Definition ark_write (bytes : list Z) (state : res W E) : option nat * res W E := update (fun w => write w bytes) state.
(** Lines 168-172: [io::Write::write_all]: one call of [write], whose number is dropped. *)
Definition ark_write_all (bytes : list Z) (state : res W E) : option unit * res W E :=
  let '(n, s) := update (fun w => write w bytes) state in (option_map (fun _ => tt) n, s).

(** A serializer of arkworks. *)
Context {D : Type}.
Inductive serializer : Type :=
| Done (result : res unit D)
| Write (bytes : list Z) (k : option nat -> serializer)
| WriteAll (bytes : list Z) (k : option unit -> serializer).
Fixpoint serialize (p : serializer) (state : res W E) : res unit D * res W E :=
  match p with
  | Done r => (r, state)
  | Write bytes k => let '(a, s) := ark_write bytes state in serialize (k a) s
  | WriteAll bytes k => let '(a, s) := ark_write_all bytes state in serialize (k a) s
  end.
(** algebra.rs lines 315-322 and the like; the writer is kept here to speak of what was written. *)
Definition encode (p : serializer) (w : W) : res W E :=
  let '(_, s) := serialize p (Ok w) in s.
End Writer.

(** manta-util/src/codec.rs lines 413-429, with lines 155-164: writing into an array fills it with the first bytes of the input.
    An input that is too short is a panic, here an error. *)
Definition array_write (w : list Z) (bytes : list Z) : res (list Z * nat) unit :=
  if Nat.ltb (length bytes) (length w) then Err tt else Ok (firstn (length w) bytes, length w).
(** codec.rs lines 437-442: writing into a vector. *)
Definition vec_write (w : list Z) (bytes : list Z) : res (list Z * nat) unit := Ok (w ++ bytes, length bytes).
(** codec.rs lines 155-180: reading from a slice. A [read] of too many bytes is a panic, here an error. *)
Definition slice_read (r : list Z) (n : nat) : res (list Z * list Z) unit :=
  if Nat.ltb (length r) n then Err tt else Ok (skipn n r, firstn n r).
Definition slice_read_exact (r : list Z) (n : nat) : @exact (list Z) unit :=
  if Nat.ltb (length r) n then End r (n - length r) else Exact (skipn n r) (firstn n r).
