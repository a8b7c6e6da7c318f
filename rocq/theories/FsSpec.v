(** What values inhabit which types, and which values a file can hold. *)
From Coq Require Import List NArith Lia Bool Arith.
From Verif Require Import CoModel FsModel.
Import ListNotations.
Open Scope nat_scope.

(** [has_type utf8 t v]: [v] is a value a Rust program of type [t] can hand to the serializer: integers
    in range, Unicode scalar values, UTF-8 strings, lengths and variant numbers that fit their tags. *)
Inductive has_type (utf8 : bytes -> bool) : ty -> val -> Prop :=
| H_bool : forall b, has_type utf8 TBool (VBool b)
| H_int : forall w n, (n < 256 ^ N.of_nat w)%N -> has_type utf8 (TInt w) (VInt w n)
| H_char : forall n, (n < 55296 \/ 57344 <= n < 1114112)%N -> has_type utf8 TChar (VChar n)
| H_str : forall s, utf8 s = true -> (N.of_nat (length s) < 2 ^ 64)%N -> has_type utf8 TStr (VStr s)
| H_bytes : forall s, (N.of_nat (length s) < 2 ^ 64)%N -> has_type utf8 TBytes (VBytes s)
| H_none : forall t, has_type utf8 (TOption t) VNone
| H_some : forall t v, has_type utf8 t v -> has_type utf8 (TOption t) (VSome v)
| H_unit : has_type utf8 TUnit VUnit
| H_new : forall t v, has_type utf8 t v -> has_type utf8 (TNew t) (VNew v)
| H_seq : forall t l, (N.of_nat (length l) < 2 ^ 64)%N -> Forall (has_type utf8 t) l ->
    has_type utf8 (TSeq t) (VSeq l)
| H_tuple : forall ts l, Forall2 (has_type utf8) ts l -> has_type utf8 (TTuple ts) (VTuple l)
| H_map : forall t u l, (N.of_nat (length l) < 2 ^ 64)%N ->
    Forall (fun kv => has_type utf8 t (fst kv) /\ has_type utf8 u (snd kv)) l ->
    has_type utf8 (TMap t u) (VMap l)
| H_enum_unit : forall ts i, (N.of_nat i < 2 ^ 32)%N -> nth_error ts i = Some TUnit ->
    has_type utf8 (TEnum ts) (VEnum i VUnit)
| H_enum_new : forall ts i t v, (N.of_nat i < 2 ^ 32)%N -> nth_error ts i = Some (TNew t) ->
    has_type utf8 t v -> has_type utf8 (TEnum ts) (VEnum i (VNew v))
| H_enum_tuple : forall ts i us l, (N.of_nat i < 2 ^ 32)%N -> nth_error ts i = Some (TTuple us) ->
    Forall2 (has_type utf8) us l -> has_type utf8 (TEnum ts) (VEnum i (VTuple l)).

(** [ends_in_unit v]: below options, newtypes and newtype variants there is nothing but a unit. *)
Fixpoint ends_in_unit (v : val) : bool :=
  match v with
  | VUnit => true
  | VNew x | VSome x | VEnum _ (VNew x) => ends_in_unit x
  | _ => false
  end.
(** [dangling v]: an option or newtype variant around such a unit, possibly inside newtypes:
    [Some(())], [Wrapper(Some(Unit))], [Enum::A(())]. *)
Fixpoint dangling (v : val) : bool :=
  match v with
  | VNew x => dangling x
  | VSome x | VEnum _ (VNew x) => ends_in_unit x
  | _ => false
  end.

(** The parts of a file: [parts n file] cuts it into pieces of [n] bytes (the last may be shorter). *)
Fixpoint parts_fuel (fuel n : nat) (file : bytes) : list bytes :=
  match fuel, file with
  | O, _ | _, [] => []
  | S f, _ => firstn n file :: parts_fuel f n (skipn n file)
  end.
Definition parts (n : nat) (file : bytes) : list bytes := parts_fuel (length file) n file.
