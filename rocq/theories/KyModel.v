(** * Accounts and their keys
    Source: manta-accounting/src/key.rs (account map and table) and manta-pay/src/key.rs and
    manta-pay/src/signer/base.rs (keys of an account).  Indices are [N]; a [u32] is below 2^32. *)
From Coq Require Import NArith String Ascii DecimalString List.
Import ListNotations.
Local Open Scope N_scope.

(** A result of a function that may panic. *)
Inductive res (A : Type) := Ok (a : A) | Panic.
Arguments Ok {A} _. Arguments Panic {A}.

(** [TryInto<u32>] of a length, followed by [expect]: key.rs lines 186-190 and 195-199. *)
Definition to_index (n : nat) : res N := let v := N.of_nat n in if v <? 2 ^ 32 then Ok v else Panic.

(** [VecAccountMap]: manta-accounting/src/key.rs line 172. *)
Definition account_map := list N.

(** [AccountMap::create_account] for [VecAccountMap]: key.rs lines 193-202. The pushed entry is
    [Default::default()], the index 0 (line 39 derives [Default]). *)
Definition create_account (m : account_map) : res (N * account_map) :=
  match to_index (length m) with
  | Ok i => Ok (i, m ++ [0])
  | Panic => Panic
  end.

(** [AccountMap::new]: key.rs lines 177-182. *)
Definition map_new : res account_map :=
  match create_account [] with Ok (_, m) => Ok m | Panic => Panic end.

(** [AccountMap::last_account]: key.rs lines 184-191. On an empty map the subtraction panics in a
    debug build; in a release build it wraps to a value above [u32::MAX] and the conversion panics. *)
Definition last_account (m : account_map) : res N :=
  match length m with O => Panic | S n => to_index n end.

(** [AccountMap::get]: key.rs lines 204-207. *)
Definition map_get (m : account_map) (a : N) : option N := nth_error m (N.to_nat a).

(** [AccountMap::get_default]: key.rs lines 153-158. *)
Definition map_get_default (m : account_map) : res N :=
  match map_get m 0 with Some x => Ok x | None => Panic end.

(** Writing through the reference of [AccountMap::get_mut]: key.rs lines 209-212. *)
Fixpoint write (l : list N) (i : nat) (x : N) : list N :=
  match l, i with
  | [], _ => []
  | _ :: t, O => x :: t
  | h :: t, S j => h :: write t j x
  end.
Definition map_set (m : account_map) (a x : N) : option account_map :=
  match map_get m a with Some _ => Some (write m (N.to_nat a) x) | None => None end.

(** [Account]: key.rs lines 258-277. *)
Record account (K : Type) := Account { key : K; index : N }.
Arguments Account {K} _ _. Arguments key {K} _. Arguments index {K} _.

(** [AccountTable]: key.rs lines 324-351. *)
Record table (K : Type) := Table { keys : K; accounts : account_map }.
Arguments Table {K} _ _. Arguments keys {K} _. Arguments accounts {K} _.

(** [AccountTable::new]: key.rs lines 341-345. *)
Definition table_new {K} (k : K) : res (table K) :=
  match map_new with Ok m => Ok (Table k m) | Panic => Panic end.

(** [AccountTable::get]: key.rs lines 359-367. *)
Definition table_get {K} (t : table K) (a : N) : option (account K) :=
  match map_get (accounts t) a with Some i => Some (Account (keys t) i) | None => None end.

(** [AccountTable::get_default]: key.rs lines 369-376. *)
Definition table_get_default {K} (t : table K) : res (account K) :=
  match table_get t 0 with Some a => Ok a | None => Panic end.

(** [AccountTable::create_account]: key.rs lines 378-382. *)
Definition table_create {K} (t : table K) : res (N * table K) :=
  match create_account (accounts t) with
  | Ok (i, m) => Ok (i, Table (keys t) m)
  | Panic => Panic
  end.

(** ** Paths *)

(** The coin types: manta-pay/src/key.rs lines 99-127. *)
Inductive coin := Testnet | Manta | Calamari.
Definition coin_type_id (c : coin) : N :=
  match c with Testnet => 1 | Manta => 611 | Calamari => 612 end.

(** The decimal numeral that [format!("{}", n)] writes for an unsigned number. *)
Definition decimal (n : N) : string := NilZero.string_of_uint (N.to_uint n).

(** [path_string]: manta-pay/src/key.rs lines 209-225. *)
Definition path_string (c : coin) (account : N) : string :=
  ("m/" ++ decimal 44 ++ "'/" ++ decimal (coin_type_id c) ++ "'/" ++ decimal account ++ "'")%string.

(** The parser of paths of the crate [bip32] ([DerivationPath::from_str]), outside /repo: the path
    is split at each '/', its first part is "m" and each other part is a number of type [u32] whose
    bit 31 is clear, followed by ' if the child is hardened. *)
Fixpoint split_on (s : string) (cur : string) : list string :=
  match s with
  | EmptyString => [cur]
  | String ch t => if Ascii.eqb ch "/" then cur :: split_on t EmptyString
                   else split_on t (cur ++ String ch EmptyString)%string
  end.

(** [str::strip_suffix] with the character '. *)
Fixpoint strip_quote (s : string) : string * bool :=
  match s with
  | EmptyString => (EmptyString, false)
  | String ch EmptyString => if Ascii.eqb ch "'" then (EmptyString, true) else (String ch EmptyString, false)
  | String ch t => let '(r, b) := strip_quote t in (String ch r, b)
  end.

(** [u32::from_str]: a sign + is permitted. *)
Definition parse_u32 (s : string) : option N :=
  let s' := match s with String ch t => if Ascii.eqb ch "+" then t else s | EmptyString => s end in
  match NilZero.uint_of_string s' with
  | Some u => let n := N.of_uint u in if n <? 2 ^ 32 then Some n else None
  | None => None
  end.

(** [ChildNumber::from_str]: the hardened flag is bit 31. *)
Definition parse_child (s : string) : option N :=
  let '(r, hardened) := strip_quote s in
  match parse_u32 r with
  | Some n => if n <? 2 ^ 31 then Some (if hardened then n + 2 ^ 31 else n) else None
  | None => None
  end.

Fixpoint parse_children (l : list string) : option (list N) :=
  match l with
  | [] => Some []
  | s :: t => match parse_child s, parse_children t with
              | Some n, Some r => Some (n :: r)
              | _, _ => None
              end
  end.

Definition parse_path (s : string) : option (list N) :=
  match split_on s EmptyString with
  | h :: t => if String.eqb h "m" then parse_children t else None
  | [] => None
  end.

(** ** Keys *)

Section Keys.
(** The seed, the extended key, the spending key, the parameters and the address. *)
Variables seed xprv spending parameters address : Type.
(** [SecretKey::derive_from_path] of the crate [bip32], on child numbers. *)
Variable derive_from_path : seed -> list N -> option xprv.
(** The reduction of the bytes of the key: manta-pay/src/signer/base.rs lines 57-59. *)
Variable from_bytes : xprv -> spending.
(** [address_from_spending_key] of the protocol (modelled with property C74). *)
Variable address_from_spending_key : parameters -> spending -> address.

(** [KeySecret]: manta-pay/src/key.rs lines 140-152, without the mnemonic. *)
Record key_secret := KeySecret { the_coin : coin; the_seed : seed }.

(** [KeySecret::xpr_secret_key]: manta-pay/src/key.rs lines 190-200. *)
Definition xpr_secret_key (k : key_secret) (i : N) : res xprv :=
  match parse_path (path_string (the_coin k) i) with
  | Some p => match derive_from_path (the_seed k) p with Some x => Ok x | None => Panic end
  | None => Panic
  end.

(** [AccountCollection::spending_key] for [KeySecret]: manta-pay/src/signer/base.rs lines 50-62. *)
Definition collection_spending_key (k : key_secret) (i : N) : res spending :=
  match xpr_secret_key k i with Ok x => Ok (from_bytes x) | Panic => Panic end.

(** [DeriveAddresses::address] for [KeySecret]: base.rs lines 64-75. *)
Definition collection_address (k : key_secret) (p : parameters) (i : N) : res address :=
  match collection_spending_key k i with Ok s => Ok (address_from_spending_key p s) | Panic => Panic end.

(** [Account::spending_key] and [Account::address]: manta-accounting/src/key.rs lines 279-283 and
    299-302. *)
Definition account_spending_key (a : account key_secret) : res spending :=
  collection_spending_key (key a) (index a).
Definition account_address (a : account key_secret) (p : parameters) : res address :=
  collection_address (key a) p (index a).
End Keys.
