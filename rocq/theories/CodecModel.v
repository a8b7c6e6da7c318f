(** Model of manta-util/src/codec.rs: readers, writers, [Encode] and [Decode], and of
    the encodings of transfer posts in manta-accounting. *)
From Coq Require Import List NArith Arith Bool.
Import ListNotations.
Open Scope N_scope.

(** ** Readers and writers *)

(** The byte readers of codec.rs: a slice (L147-176), a vector (L226-253), an array
    (L190-215), and an [IoReader] (L269-303).  An [IoReader] is modelled over a finite
    source which returns all its bytes and then reports the end of the file. *)
Inductive rkind := KSlice | KVec | KArr | KIo.
Record rdr := Rdr { rk : rkind; rbytes : list N }.

(** Outcome of an operation that may fail or panic. *)
Inductive res (E A : Type) := Ok (a : A) | Err (e : E) | Panic.
Arguments Ok {E A}. Arguments Err {E A}. Arguments Panic {E A}.

(** codec.rs L315-325: [ReadExactError]. *)
Inductive rerr := UnexpectedEnd (missing : nat) | ReadFailed.

(** The reader after taking [n] bytes: only the array reader (L205-214) does not
    advance. *)
Definition advance (r : rdr) (n : nat) : rdr :=
  match rk r with
  | KArr => r
  | k => Rdr k (skipn n (rbytes r))
  end.

(** [read]: codec.rs L152-160 (slice: indexing panics on short data), L194-203 (array),
    L230-240 (vector, through the slice), L276-281 (io: at most what is there). *)
Definition read (r : rdr) (n : nat) : res rerr (list N * rdr) :=
  match rk r with
  | KIo => Ok (firstn n (rbytes r), advance r n)
  | _ => if (length (rbytes r) <? n)%nat then Panic else Ok (firstn n (rbytes r), advance r n)
  end.

(** [read_exact]: codec.rs L163-175, L205-215, L243-252, L284-293. *)
Definition read_exact (r : rdr) (n : nat) : res rerr (list N * rdr) :=
  if (length (rbytes r) <? n)%nat
  then match rk r with
       | KIo => Err ReadFailed
       | _ => Err (UnexpectedEnd (n - length (rbytes r))%nat)
       end
  else Ok (firstn n (rbytes r), advance r n).

(** Writers: a vector (codec.rs L431-450), a fixed buffer [[u8]] or [[u8; N]] (L412-429)
    and an [IoWriter] (L461-476) over a sink that accepts everything. *)
Inductive wtr := WVec (b : list N) | WBuf (b : list N) | WIo (b : list N).
Definition wbytes (w : wtr) : list N := match w with WVec b | WBuf b | WIo b => b end.

(** [write]: returns the writer, the input slice afterwards and the number of bytes
    written; [None] is a panic.  The vector (L435-440) appends and leaves the input
    slice as it was; the fixed buffer (L416-418, L426-428) reads as many bytes as its
    own length, panicking if the input is shorter; the io writer (L468-474) resets the
    input. *)
Definition write (w : wtr) (input : list N) : option (wtr * list N * nat) :=
  match w with
  | WVec b => Some (WVec (b ++ input), input, length input)
  | WBuf b =>
      match read (Rdr KSlice input) (length b) with
      | Ok (out, r) => Some (WBuf out, rbytes r, length b)
      | _ => None
      end
  | WIo b => Some (WIo (b ++ input), firstn 0 input, length input)
  end.

(** [write_ref]: codec.rs L345-353; returns what remains of the slice. *)
Definition write_ref (w : wtr) (input : list N) : option (wtr * list N) :=
  match write w input with Some (w', rest, _) => Some (w', rest) | None => None end.

(** [write_drain]: codec.rs L364-369 (default) and L443-447 (vector): returns the
    writer, the drained vector and the count. *)
Definition write_drain (w : wtr) (input : list N) : option (wtr * list N * nat) :=
  match w with
  | WVec b => Some (WVec (b ++ input), [], length input)
  | _ =>
      match write_ref w input with
      | Some (w', rest) =>
          let n := (length input - length rest)%nat in Some (w', skipn n input, n)
      | None => None
      end
  end.

(** ** Encodable types and values *)

(** The type constructors with codec instances: unit and [PhantomData] (L31-61,
    L579-587), [bool] (L589-597), little-endian unsigned integers of [k] bytes
    (L599-618), structures of two parts, arrays (L637-651, [Array] L653-664), vectors,
    slices and boxed slices (L620-635, L666-700), [Option] (L702-719), [Result]
    (L721-742).  Signed integers are encoded like unsigned ones and cannot be decoded;
    they are left out. *)
Inductive cty :=
| CUnit | CBool | CInt (k : nat) | CPair (a b : cty) | CArr (n : nat) (a : cty)
| CVec (a : cty) | COpt (a : cty) | CRes (a b : cty).

Fixpoint cval (t : cty) : Type :=
  match t with
  | CUnit => unit
  | CBool => bool
  | CInt _ => N
  | CPair a b => cval a * cval b
  | CArr _ a => list (cval a)
  | CVec a => list (cval a)
  | COpt a => option (cval a)
  | CRes a b => cval a + cval b
  end%type.

(** Values that exist in Rust: integers in range, arrays of their length, vectors whose
    length fits [u64]. *)
Fixpoint cwf (t : cty) : cval t -> Prop :=
  match t return cval t -> Prop with
  | CUnit | CBool => fun _ => True
  | CInt k => fun v => v < 256 ^ N.of_nat k
  | CPair a b => fun v => cwf a (fst v) /\ cwf b (snd v)
  | CArr n a => fun v => length v = n /\ Forall (cwf a) v
  | CVec a => fun v => N.of_nat (length v) < 256 ^ 8 /\ Forall (cwf a) v
  | COpt a => fun v => match v with Some x => cwf a x | None => True end
  | CRes a b => fun v => match v with inl x => cwf a x | inr y => cwf b y end
  end.

(** [to_le_bytes] of a [k]-byte integer, and [from_le_bytes]. *)
Fixpoint le (k : nat) (v : N) : list N :=
  match k with O => [] | S k' => v mod 256 :: le k' (v / 256) end.
Fixpoint from_le (l : list N) : N :=
  match l with [] => 0 | b :: l' => b + 256 * from_le l' end.

(** [Encode]: the sequence of byte strings handed to the writer.  codec.rs L589-742. *)
Fixpoint enc (t : cty) : cval t -> list (list N) :=
  match t return cval t -> list (list N) with
  | CUnit => fun _ => []
  | CBool => fun v => [le 1 (if v then 1 else 0)]
  | CInt k => fun v => [le k v]
  | CPair a b => fun v => enc a (fst v) ++ enc b (snd v)
  | CArr n a => fun v => flat_map (enc a) v
  | CVec a => fun v => le 8 (N.of_nat (length v)) :: flat_map (enc a) v
  | COpt a => fun v => match v with Some x => le 1 1 :: enc a x | None => [le 1 0] end
  | CRes a b => fun v =>
      match v with inl x => le 1 1 :: enc a x | inr y => le 1 0 :: enc b y end
  end.

(** Handing a sequence of byte strings to a writer with [write_ref]; the result of
    [write_ref] is dropped (L612). *)
Fixpoint write_parts (w : wtr) (ps : list (list N)) : option wtr :=
  match ps with
  | [] => Some w
  | p :: ps' => match write_ref w p with Some (w', _) => write_parts w' ps' | None => None end
  end.

(** [to_vec]: codec.rs L570-576. *)
Definition to_vec (t : cty) (v : cval t) : option (list N) :=
  option_map wbytes (write_parts (WVec []) (enc t v)).

(** [EncodeExactSize::to_array]: codec.rs L744-755. *)
Definition to_array (t : cty) (n : nat) (v : cval t) : option (list N) :=
  option_map wbytes (write_parts (WBuf (repeat 0 n)) (enc t v)).

(** Decoding errors: [DRead] is [DecodeError::Read]; the others are the [Decode] errors
    of the instances: [()] (L795-877), [Option<T::Error>] of sequences (L885, L905),
    [OptionDecodeError] (L938-948), [ResultDecodeError] (L977-990), and the two cases of
    a structure of two parts (asset.rs L303-318). *)
Inductive derr :=
| DRead | DUnit | DLen | DItem (e : derr) | DMissing | DInvalid (b : N)
| DSome (e : derr) | DOk (e : derr) | DErr (e : derr) | DFst (e : derr) | DSnd (e : derr)
| DNoDecode.

(** [map_err(|e| e.map_decode(f))]: codec.rs L1079-1090; a read error stays. *)
Definition map_decode (f : derr -> derr) (e : derr) : derr :=
  match e with DRead => DRead | _ => f e end.

(** The loop [for _ in 0..n] of array and vector decoding: codec.rs L891-895, L912-916. *)
Fixpoint dec_list {A} (d : rdr -> res derr (A * rdr)) (n : nat) (r : rdr) : res derr (list A * rdr) :=
  match n with
  | O => Ok ([], r)
  | S n' =>
      match d r with
      | Ok (x, r') =>
          match dec_list d n' r' with
          | Ok (xs, r'') => Ok (x :: xs, r'')
          | Err e => Err e
          | Panic => Panic
          end
      | Err e => Err (map_decode DItem e)
      | Panic => Panic
      end
  end.

Section Decode.
(** Memory size of one element: [Vec::with_capacity(len)] panics if the vector would
    exceed [isize::MAX] bytes (codec.rs L911). *)
Variable size_of : cty -> N.

(** Integers: codec.rs L795-877. *)
Definition dec_int (k : nat) (r : rdr) : res derr (N * rdr) :=
  match read_exact r k with
  | Ok (bs, r') => Ok (from_le bs, r')
  | Err ReadFailed => Err DRead
  | Err (UnexpectedEnd _) => Err DUnit
  | Panic => Panic
  end.

(** [Decode]: codec.rs L782-1022; asset.rs L327-345 for structures. [bool] has no
    decoder. *)
Fixpoint dec (t : cty) : rdr -> res derr (cval t * rdr) :=
  match t return rdr -> res derr (cval t * rdr) with
  | CUnit => fun r => Ok (tt, r)
  | CBool => fun r => Err DNoDecode
  | CInt k => dec_int k
  | CPair a b => fun r =>
      match dec a r with
      | Ok (x, r1) =>
          match dec b r1 with
          | Ok (y, r2) => Ok ((x, y), r2)
          | Err e => Err (map_decode DSnd e)
          | Panic => Panic
          end
      | Err e => Err (map_decode DFst e)
      | Panic => Panic
      end
  | CArr n a => dec_list (dec a) n
  | CVec a => fun r =>
      match dec_int 8 r with
      | Ok (len, r1) =>
          if 2 ^ 63 <=? len * size_of a then Panic
          else dec_list (dec a) (N.to_nat len) r1
      | Err e => Err (map_decode (fun _ => DLen) e)
      | Panic => Panic
      end
  | COpt a => fun r =>
      match dec_int 1 r with
      | Ok (b, r1) =>
          if b =? 0 then
            match dec a r1 with
            | Ok (x, r2) => Ok (Some x, r2)
            | Err e => Err (map_decode DSome e)
            | Panic => Panic
            end
          else if b =? 1 then Ok (None, r1)
          else Err (DInvalid b)
      | Err e => Err (map_decode (fun _ => DMissing) e)
      | Panic => Panic
      end
  | CRes a b => fun r =>
      match dec_int 1 r with
      | Ok (c, r1) =>
          if c =? 0 then
            match dec a r1 with
            | Ok (x, r2) => Ok (inl x, r2)
            | Err e => Err (map_decode DOk e)
            | Panic => Panic
            end
          else if c =? 1 then
            match dec b r1 with
            | Ok (y, r2) => Ok (inr y, r2)
            | Err e => Err (map_decode DErr e)
            | Panic => Panic
            end
          else Err (DInvalid c)
      | Err e => Err (map_decode (fun _ => DMissing) e)
      | Panic => Panic
      end
  end.

(** [from_vec] (codec.rs L770-775) and [from_array] (L1027-1036); leftover bytes are
    ignored. *)
Definition from_vec (t : cty) (bs : list N) : res derr (cval t) :=
  match dec t (Rdr KVec bs) with Ok (v, _) => Ok v | Err e => Err e | Panic => Panic end.
Definition from_array (t : cty) (bs : list N) : option (cval t) :=
  match dec t (Rdr KArr bs) with Ok (v, _) => Some v | _ => None end.

End Decode.

(** ** Transfer posts *)

(** The component types of a post: asset id, asset value, accumulator output, nullifier
    commitment, outgoing note, utxo commitment, incoming notes, proof, authorization key,
    signature, account.  Each is any encodable type; utxos, nullifiers and notes
    are structures of these. *)
Record ptypes := PTypes {
  t_id : cty; t_value : cty; t_root : cty; t_nullc : cty; t_outnote : cty;
  t_commit : cty; t_partition : cty; t_note : cty; t_lightnote : cty;
  t_proof : cty; t_key : cty; t_sig : cty; t_account : cty }.

Section Posts.
Variable T : ptypes.

(** sender.rs L674-689 with protocol.rs L2871-2886. *)
Definition sender_post_ty := CPair (t_root T) (CPair (t_nullc T) (t_outnote T)).
(** asset.rs L282-296; protocol.rs L1908-1925; protocol.rs L1725-1742; receiver.rs
    L368-383. *)
Definition asset_ty := CPair (t_id T) (t_value T).
Definition utxo_ty := CPair CBool (CPair asset_ty (t_commit T)).
Definition full_note_ty := CPair (t_partition T) (CPair (t_note T) (t_lightnote T)).
Definition receiver_post_ty := CPair utxo_ty full_note_ty.

(** transfer/mod.rs L1469-1490. *)
Record pbody := PBody {
  b_asset_id : option (cval (t_id T));
  b_sources : list (cval (t_value T));
  b_senders : list (cval sender_post_ty);
  b_receivers : list (cval receiver_post_ty);
  b_sinks : list (cval (t_value T));
  b_proof : cval (t_proof T) }.

(** transfer/mod.rs L1673-1685. *)
Record ppost := PPost {
  p_auth : option (cval (t_key T) * cval (t_sig T));
  p_body : pbody;
  p_sink_accounts : list (cval (t_account T)) }.

(** transfer/mod.rs L1547-1569. *)
Definition enc_body (b : pbody) : list (list N) :=
  enc (COpt (t_id T)) (b_asset_id b) ++
  enc (CVec (t_value T)) (b_sources b) ++
  enc (CVec sender_post_ty) (b_senders b) ++
  enc (CVec receiver_post_ty) (b_receivers b) ++
  enc (CVec (t_value T)) (b_sinks b) ++
  enc (t_proof T) (b_proof b).

(** transfer/mod.rs L1621-1636: the message signed by the authorization signature. *)
Definition enc_signed (b : pbody) (accounts : list (cval (t_account T))) : list (list N) :=
  enc_body b ++ enc (CVec (t_account T)) accounts.

(** transfer/mod.rs L1918-1933 with auth.rs L405-420. *)
Definition enc_post (p : ppost) : list (list N) :=
  enc (COpt (CPair (t_key T) (t_sig T))) (p_auth p) ++ enc_body (p_body p).

(** Values that exist in Rust. *)
Definition wf_body (b : pbody) : Prop :=
  cwf (COpt (t_id T)) (b_asset_id b) /\ cwf (CVec (t_value T)) (b_sources b) /\
  cwf (CVec sender_post_ty) (b_senders b) /\ cwf (CVec receiver_post_ty) (b_receivers b) /\
  cwf (CVec (t_value T)) (b_sinks b) /\ cwf (t_proof T) (b_proof b).
Definition wf_post (p : ppost) : Prop :=
  cwf (COpt (CPair (t_key T) (t_sig T))) (p_auth p) /\ wf_body (p_body p) /\
  cwf (CVec (t_account T)) (p_sink_accounts p).
End Posts.
