(** Model of the encrypted file layer: manta-accounting/src/fs/mod.rs ([Block], [File::save],
    [File::load], [cocoon::File]) and the serde format on top of it, manta-accounting/src/fs/serde.rs.

    A value is a tree of the serde data model, as the [Serialize] and [Deserialize] implementations
    present it to the serializer and ask for it again; a type says which [deserialize_*] calls are made.
    Integers of every width and sign and floats are their bit patterns. Structs are tuples (names are
    never written), struct variants are tuple variants, unit structs are units. Iterators of unknown
    length ([UnsupportedFeature], L205-L215) are not values here. Opening files and the operating
    system are left out: a file is its list of bytes. [utf8] is [String::from_utf8] succeeding. *)

From Coq Require Import List NArith Lia Bool Arith.
From Verif Require Import CoModel.
Import ListNotations.
Open Scope nat_scope.

(** Values of the serde data model. *)
Inductive val :=
| VBool (b : bool)
| VInt (w : nat) (n : N)
| VChar (n : N)
| VStr (s : bytes)
| VBytes (s : bytes)
| VNone
| VSome (v : val)
| VUnit
| VNew (v : val)
| VSeq (l : list val)
| VTuple (l : list val)
| VMap (l : list (val * val))
| VEnum (i : nat) (payload : val).

(** Types; the payload of an enum variant is [TUnit] (unit variant), [TNew t] (newtype variant) or
    [TTuple ts] (tuple and struct variants). *)
Inductive ty :=
| TBool
| TInt (w : nat)
| TChar
| TStr
| TBytes
| TOption (t : ty)
| TUnit
| TNew (t : ty)
| TSeq (t : ty)
| TTuple (ts : list ty)
| TMap (k v : ty)
| TEnum (variants : list ty).

(** de::Error, serde.rs L677-L710; the errors raised by a derived visitor (wrong variant index) are
    [Custom]. [Halt] is a panic or abort. *)
Inductive de_error := Io (e : error) | MissingBytes | InvalidBoolTag | InvalidOptionTag | InvalidCharacter
  | FromUtf8Error | Custom.
Inductive de_out (A : Type) := DOk (a : A) | DErr (e : de_error) | Halt.
Arguments DOk {A} a. Arguments DErr {A} e. Arguments Halt {A}.
Definition dbind {A B} (x : de_out A) (f : A -> de_out B) : de_out B :=
  match x with DOk a => f a | DErr e => DErr e | Halt => Halt end.
Notation "'dd' x <- e ; f" := (dbind e (fun x => f)) (at level 60, x pattern, e at level 59, right associativity).

(** [map_err(de::Error::Io)], serde.rs L821. *)
Definition map_io {A} (x : out A) : de_out A :=
  match x with Ok a => DOk a | Err e => DErr (Io e) | Stop => Halt end.

(** Block::SIZE, mod.rs L232. *)
Definition block_size : nat := N.to_nat 8192.

(** [Vec::resize(SIZE, 0)]: cut or padded with zeros. *)
Definition resize (n : nat) (d : bytes) : bytes := firstn n d ++ repeat 0%N (n - length d).

(** [char::from_u32], serde.rs L993. *)
Definition char_ok (n : N) : bool := ((n <? 55296) || ((57344 <=? n) && (n <? 1114112)))%N.

Section Fs.
  Variable kdf : bytes -> bytes -> N -> bytes.
  Variable seal : cipher -> bytes -> bytes -> bytes -> bytes -> option (bytes * bytes).
  Variable open : cipher -> bytes -> bytes -> bytes -> bytes -> bytes -> option bytes.
  Variable Rng : Type.
  Variable from_seed : bytes -> Rng.
  Variable fill : Rng -> nat -> bytes * Rng.
  Variable mem : N.
  Variable utf8 : bytes -> bool.

  (** Block::new, mod.rs L236-L239. *)
  Definition block_new (data : bytes) : option bytes :=
    if length data <=? block_size then Some (resize block_size data) else None.
  (** Block::parse, mod.rs L256-L259: the block and the bytes left. *)
  Definition block_parse (data : bytes) : bytes * bytes :=
    let n := Nat.min (length data) block_size in
    (resize block_size (firstn n data), skipn n data).
  (** Block::parse_full, mod.rs L263-L266. *)
  Definition block_parse_full (data : bytes) : option (bytes * bytes) :=
    if block_size <=? length data then Some (block_parse data) else None.

  (** cocoon::File::new, mod.rs L408-L418: the container object of every file with this password. *)
  Definition file_cocoon (password : bytes) : out (mini Rng) :=
    mini_from_password kdf Rng from_seed password (repeat 0%N 32).
  (** cocoon::File::write, mod.rs L438-L440: the file after appending the dumped block. *)
  Definition file_write (m : mini Rng) (file block : bytes) : out bytes :=
    do c <- mini_dump seal Rng fill m block; Ok (file ++ c).
  (** cocoon::File::read, mod.rs L443-L450: the block, if any, and the unread rest of the file. *)
  Definition file_read (m : mini Rng) (input : bytes) : out (option bytes * bytes) :=
    do (data, rest) <- mini_parse open Rng mem m input;
    match data with
    | [] => Ok (None, rest)
    | _ => Ok (block_new data, rest)
    end.

  (** Serializer, serde.rs L118-L130. *)
  Record ser := { s_file : bytes; s_block : bytes; s_depth : nat }.

  (** Serializer::extend, serde.rs L148-L150. *)
  Definition extend (s : ser) (bs : bytes) : ser :=
    {| s_file := s_file s; s_block := s_block s ++ bs; s_depth := s_depth s |}.
  (** Serializer::flush_intermediate, serde.rs L163-L169; every turn removes a block, so [fuel] turns
      are enough for [fuel] bytes. *)
  Fixpoint flush_intermediate (m : mini Rng) (fuel : nat) (s : ser) : out ser :=
    match block_parse_full (s_block s) with
    | None => Ok s
    | Some (block, rest) =>
        match fuel with
        | O => Stop
        | S f => do file <- file_write m (s_file s) block;
                 flush_intermediate m f {| s_file := file; s_block := rest; s_depth := s_depth s |}
        end
    end.
  (** Serializer::flush_end, serde.rs L173-L178. *)
  Fixpoint flush_end (m : mini Rng) (fuel : nat) (s : ser) : out ser :=
    match s_block s with
    | [] => Ok s
    | _ =>
        match fuel with
        | O => Stop
        | S f => let (block, rest) := block_parse (s_block s) in
                 do file <- file_write m (s_file s) block;
                 flush_end m f {| s_file := file; s_block := rest; s_depth := s_depth s |}
        end
    end.
  (** Serializer::flush, serde.rs L183-L190. *)
  Definition flush (m : mini Rng) (s : ser) : out ser :=
    match s_depth s with
    | O => flush_end m (length (s_block s)) s
    | S _ => flush_intermediate m (length (s_block s)) s
    end.
  (** Serializer::write_bytes, serde.rs L195-L201. *)
  Definition write_bytes (m : mini Rng) (s : ser) (bs : bytes) : out ser := flush m (extend s bs).
  (** Serializer::start_struct, serde.rs L219-L222; start_sequence, L205-L215, and
      start_struct_with_variant, L227-L244, with their extra bytes. *)
  Definition start (s : ser) (bs : bytes) : ser :=
    extend {| s_file := s_file s; s_block := s_block s; s_depth := S (s_depth s) |} bs.
  (** Serializer::end_compound, serde.rs L249-L252. *)
  Definition end_compound (m : mini Rng) (s : ser) : out ser :=
    match s_depth s with
    | O => Stop
    | S d => flush m {| s_file := s_file s; s_block := s_block s; s_depth := d |}
    end.

  (** [u64] length tags and [u32] variant tags. *)
  Definition len_tag (n : nat) : bytes := le 8 (N.of_nat n).
  Definition variant_tag (i : nat) : bytes := le 4 (N.of_nat i).

  (** A run of elements, each serialised after the other (the [SerializeSeq], [SerializeTuple], ...
      implementations, serde.rs L483-L657). *)
  Definition each {A} (f : A -> ser -> out ser) : list A -> ser -> out ser :=
    fix go l s := match l with [] => Ok s | x :: r => do s1 <- f x s; go r s1 end.

  (** The [serialize_*] methods, serde.rs L270-L475, one line per method as called by the value. *)
  Fixpoint serialize (m : mini Rng) (v : val) (s : ser) {struct v} : out ser :=
    match v with
    | VBool b => write_bytes m s [if b then 1%N else 0%N]                       (* L271 *)
    | VInt w n => write_bytes m s (le w n)                                      (* L276-L333 *)
    | VChar n => write_bytes m s (le 4 n)                                       (* L336 *)
    | VStr bs =>                                                                (* L341, [u8]::serialize *)
        do s1 <- each (fun b t => write_bytes m t [b]) bs (start s (len_tag (length bs)));
        end_compound m s1
    | VBytes bs => flush m (extend (extend s (len_tag (length bs))) bs)         (* L346 *)
    | VNone => write_bytes m s [0%N]                                            (* L353 *)
    | VSome x => serialize m x (extend s [1%N])                                 (* L358 *)
    | VUnit => Ok s                                                             (* L367, L372 *)
    | VNew x => serialize m x s                                                 (* L389 *)
    | VSeq l =>                                                                 (* L418 *)
        do s1 <- each (serialize m) l (start s (len_tag (length l))); end_compound m s1
    | VTuple l =>                                                               (* L423, L429, L456 *)
        do s1 <- each (serialize m) l (start s []); end_compound m s1
    | VMap l =>                                                                 (* L451, L571-L599 *)
        do s1 <- each (fun kv t => do t1 <- serialize m (fst kv) t; serialize m (snd kv) t1) l
                   (start s (len_tag (length l)));
        end_compound m s1
    | VEnum i p =>
        match p with
        | VUnit => write_bytes m s (variant_tag i)                              (* L378 *)
        | VNew x => serialize m x (extend s (variant_tag i))                    (* L402 *)
        | VTuple l =>                                                           (* L439, L466 *)
            do s1 <- each (serialize m) l (start s (variant_tag i)); end_compound m s1
        | _ => Stop                                                             (* not a payload *)
        end
    end.

  (** File::save on a freshly truncated file, mod.rs L328-L341: the bytes of the file afterwards.
      Whatever is left in the serializer's buffer is dropped with it. *)
  Definition save (password : bytes) (v : val) : out bytes :=
    do m <- file_cocoon password;
    do s <- serialize m v {| s_file := []; s_block := []; s_depth := 0 |};
    Ok (s_file s).

  (** Deserializer, serde.rs L768-L777. *)
  Record des := { d_file : bytes; d_block : bytes }.

  (** Deserializer::load_bytes with load, serde.rs L795-L816; every successful read shortens the file,
      so the length of the file is enough fuel. *)
  Fixpoint load_bytes (m : mini Rng) (fuel : nat) (n : nat) (s : des) : out (bool * des) :=
    if n <=? length (d_block s) then Ok (true, s) else
    match fuel with
    | O => Stop
    | S f =>
        do (b, rest) <- file_read m (d_file s);
        match b with
        | Some block => load_bytes m f n {| d_file := rest; d_block := d_block s ++ block |}
        | None => Ok (false, {| d_file := rest; d_block := d_block s |})
        end
    end.
  (** Deserializer::read_exact, serde.rs L820-L826. *)
  Definition read_n (m : mini Rng) (n : nat) (s : des) : de_out (bytes * des) :=
    dd (ok, s1) <- map_io (load_bytes m (S (length (d_file s))) n s);
    if ok : bool
    then DOk (firstn n (d_block s1), {| d_file := d_file s1; d_block := skipn n (d_block s1) |})
    else DErr MissingBytes.
  (** Deserializer::read_bytes for an integer, L836-L841, and read_len, L845-L847. *)
  Definition read_int (m : mini Rng) (w : nat) (s : des) : de_out (N * des) :=
    dd (bs, s1) <- read_n m w s; DOk (un_le bs, s1).
  Definition read_len (m : mini Rng) (s : des) : de_out (nat * des) :=
    dd (n, s1) <- read_int m 8 s; DOk (N.to_nat n, s1).
  (** Deserializer::read_byte_buf, serde.rs L851-L854. *)
  Definition read_byte_buf (m : mini Rng) (s : des) : de_out (bytes * des) :=
    dd (n, s1) <- read_len m s; read_n m n s1.

  (** [n] elements in a row: [LengthAccess] as [SeqAccess] and [MapAccess], serde.rs L1178-L1231. *)
  Fixpoint repeat_read {A} (f : des -> de_out (A * des)) (n : nat) (s : des) : de_out (list A * des) :=
    match n with
    | O => DOk ([], s)
    | S n' => dd (x, s1) <- f s; dd (xs, s2) <- repeat_read f n' s1; DOk (x :: xs, s2)
    end.
  Fixpoint each_read (fs : list (des -> de_out (val * des))) (s : des) : de_out (list val * des) :=
    match fs with
    | [] => DOk ([], s)
    | f :: r => dd (x, s1) <- f s; dd (xs, s2) <- each_read r s1; DOk (x :: xs, s2)
    end.

  (** The [deserialize_*] methods, serde.rs L870-L1170, and enum access, L1233-L1290. *)
  Fixpoint deserialize (m : mini Rng) (t : ty) (s : des) {struct t} : de_out (val * des) :=
    match t with
    | TBool =>                                                                  (* L880 *)
        dd (n, s1) <- read_int m 1 s;
        if N.eqb n 0 then DOk (VBool false, s1) else
        if N.eqb n 1 then DOk (VBool true, s1) else DErr InvalidBoolTag
    | TInt w => dd (n, s1) <- read_int m w s; DOk (VInt w n, s1)                (* L892-L985 *)
    | TChar =>                                                                  (* L988 *)
        dd (n, s1) <- read_int m 4 s;
        if char_ok n then DOk (VChar n, s1) else DErr InvalidCharacter
    | TStr =>                                                                   (* L1000, L858-L860 *)
        dd (bs, s1) <- read_byte_buf m s;
        if utf8 bs then DOk (VStr bs, s1) else DErr FromUtf8Error
    | TBytes => dd (bs, s1) <- read_byte_buf m s; DOk (VBytes bs, s1)           (* L1016 *)
    | TOption t' =>                                                             (* L1032 *)
        dd (n, s1) <- read_int m 1 s;
        if N.eqb n 0 then DOk (VNone, s1) else
        if N.eqb n 1 then dd (x, s2) <- deserialize m t' s1; DOk (VSome x, s2)
        else DErr InvalidOptionTag
    | TUnit => DOk (VUnit, s)                                                   (* L1044 *)
    | TNew t' => dd (x, s1) <- deserialize m t' s; DOk (VNew x, s1)             (* L1065 *)
    | TSeq t' =>                                                                (* L1078 *)
        dd (n, s1) <- read_len m s;
        dd (l, s2) <- repeat_read (deserialize m t') n s1; DOk (VSeq l, s2)
    | TTuple ts =>                                                              (* L1087, L1098, L1123 *)
        dd (l, s1) <- each_read (map (deserialize m) ts) s; DOk (VTuple l, s1)
    | TMap k v =>                                                               (* L1112 *)
        dd (n, s1) <- read_len m s;
        dd (l, s2) <- repeat_read (fun t1 => dd (a, t2) <- deserialize m k t1;
                                             dd (b, t3) <- deserialize m v t2; DOk ((a, b), t3)) n s1;
        DOk (VMap l, s2)
    | TEnum ts =>                                                               (* L1137, L1242 *)
        dd (i, s1) <- read_int m 4 s;
        match nth_error (map (fun p => match p with
                                       | TUnit => fun s' => DOk (VUnit, s')     (* L1259 *)
                                       | TNew t' => fun s' => dd (x, s2) <- deserialize m t' s'; DOk (VNew x, s2)  (* L1264 *)
                                       | TTuple us => fun s' => dd (l, s2) <- each_read (map (deserialize m) us) s';
                                                                DOk (VTuple l, s2)   (* L1272, L1280 *)
                                       | _ => fun _ => Halt                     (* not a payload *)
                                       end) ts) (N.to_nat i) with
        | Some f => dd (x, s2) <- f s1; DOk (VEnum (N.to_nat i) x, s2)
        | None => DErr Custom
        end
    end.

  (** File::load, mod.rs L347-L358. *)
  Definition load (password : bytes) (t : ty) (file : bytes) : de_out val :=
    dd m <- map_io (file_cocoon password);
    dd (v, _) <- deserialize m t {| d_file := file; d_block := [] |};
    DOk v.
End Fs.
