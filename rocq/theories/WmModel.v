(** * Multiplication of group elements by scalars given as bits
    Source: manta-crypto/src/algebra/mod.rs (windows and tables of bases),
    manta-crypto/src/eclair/bool.rs (selection from a table) and manta-crypto/src/arkworks/algebra.rs
    (multiplication with precomputed bases).  The compiler is left out: a variable is its value. *)
From Coq Require Import List NArith Arith.
Import ListNotations.
Local Open Scope nat_scope.

(** A result of a function that may panic. *)
Inductive res (A : Type) := Ok (a : A) | Panic.
Arguments Ok {A} _. Arguments Panic {A}.
Definition bind {A B} (x : res A) (f : A -> res B) : res B := match x with Ok a => f a | Panic => Panic end.

(** [ConditionalSelect::select]: eclair/bool.rs lines 99-100 and 145-160, arkworks/algebra.rs lines
    402-415; for circuit variables the contract of arkworks' [CondSelectGadget]. *)
Definition select {G} (bit : bool) (true_value false_value : G) : G := if bit then true_value else false_value.

(** One pass over the table: [chunk_by] (manta-util/src/iter/chunk_by.rs lines 69-90) makes pairs, a
    last element without partner is dropped; [select(bit, y, x)] takes the second one if the bit is
    set: eclair/bool.rs lines 123-126 and 128-132. *)
Fixpoint select_pairs {G} (bit : bool) (table : list G) : list G :=
  match table with
  | x :: y :: t => select bit y x :: select_pairs bit t
  | _ => []
  end.

(** The loop over the bits: eclair/bool.rs lines 122-133. *)
Fixpoint select_loop {G} (bits : list bool) (table : list G) : list G :=
  match bits with
  | [] => table
  | b :: t => select_loop t (select_pairs b table)
  end.

(** [ConditionalSelect::select_from_table]: eclair/bool.rs lines 105-141. *)
Definition select_from_table {G} (bits : list bool) (table : list G) : res G :=
  if Nat.eqb (length table) (2 ^ length bits) then
    match select_loop bits table with g :: _ => Ok g | [] => Panic end
  else Panic.

(** [usize::trailing_zeros] for 64 bits. *)
Fixpoint pos_trailing_zeros (p : positive) : nat :=
  match p with xO q => S (pos_trailing_zeros q) | _ => 0 end.
Definition trailing_zeros (n : nat) : nat :=
  match N.of_nat n with N0 => 64 | Npos p => pos_trailing_zeros p end.

(** [chunks_exact]: the complete chunks and the remainder. The first argument bounds the recursion. *)
Fixpoint chunks_exact {A} (fuel k : nat) (l : list A) : list (list A) * list A :=
  match fuel with
  | O => ([], l)
  | S f => if Nat.ltb (length l) k then ([], l)
           else let '(c, r) := chunks_exact f k (skipn k l) in (firstn k l :: c, r)
  end.

Section Window.
(** The group: algebra/mod.rs lines 31-33, and its zero (eclair/num.rs lines 29-38). *)
Variable G : Type.
Variable zero : G.
Variable add : G -> G -> G.

(** [Group::double_assign]: algebra/mod.rs lines 42-47. *)
Definition double (x : G) : G := add x x.

(** [Group::repeated_double_assign]: algebra/mod.rs lines 49-56. *)
Fixpoint repeated_double (k : nat) (x : G) : G :=
  match k with O => x | S j => repeated_double j (double x) end.

(** The loop of [Window::new]: algebra/mod.rs lines 173-175. The table is not empty. *)
Fixpoint extend_table (n : nat) (point : G) (table : list G) : list G :=
  match n with
  | O => table
  | S m => extend_table m point (table ++ [add (last table zero) point])
  end.

(** [Window::new]: algebra/mod.rs lines 163-177. Here a table may be larger than the memory. *)
Definition window_new (window_size : nat) (point : G) : res (list G) :=
  if Nat.ltb 0 window_size then Ok (extend_table (2 ^ window_size - 2) point [zero; point]) else Panic.

(** [Window::window_size]: algebra/mod.rs lines 179-183. *)
Definition window_size (table : list G) : nat := trailing_zeros (length table).

(** [Window::scalar_mul_round]: algebra/mod.rs lines 197-214. *)
Definition scalar_mul_round (size : nat) (table : list G) (chunk : list bool) (result : G) : res G :=
  bind (select_from_table (rev chunk) table) (fun selected =>
    Ok (add (repeated_double size result) selected)).

(** The rounds: algebra/mod.rs lines 234-236. *)
Fixpoint rounds (size : nat) (table : list G) (chunks : list (list bool)) (result : G) : res G :=
  match chunks with
  | [] => Ok result
  | c :: t => bind (scalar_mul_round size table c result) (rounds size table t)
  end.

(** [Window::scalar_mul]: algebra/mod.rs lines 216-242. [chunks_exact(0)] and a slice beyond the end
    of the table panic. *)
Definition window_scalar_mul (table : list G) (bits : list bool) : res G :=
  let size := window_size table in
  if Nat.eqb size 0 then Panic
  else
    let '(chunks, remainder) := chunks_exact (length bits) size bits in
    bind (rounds size table chunks zero) (fun result =>
      let last_size := length remainder in
      if Nat.leb (2 ^ last_size) (length table)
      then scalar_mul_round last_size (firstn (2 ^ last_size) table) remainder result
      else Panic).

(** [PrecomputedBaseTable::from_base]: algebra/mod.rs lines 119-132. *)
Fixpoint from_base (n : nat) (base : G) : list G :=
  match n with O => [] | S m => base :: from_base m (add base base) end.

(** The bits of a field element, least significant first: [to_bits_le] of arkworks, [size] of them. *)
Fixpoint to_bits_le (size : nat) (v : N) : list bool :=
  match size with O => [] | S n => N.odd v :: to_bits_le n (N.div2 v) end.

(** [FixedBaseScalarMul::fixed_base_scalar_mul]: arkworks/algebra.rs lines 662-684; [modulus_bits] is
    the number of bits of the constraint field. *)
Fixpoint fixed_base_loop (bits : list bool) (bases : list G) (result : G) : G :=
  match bits, bases with
  | b :: bt, p :: pt => fixed_base_loop bt pt (select b (add result p) result)
  | _, _ => result
  end.
Definition fixed_base_scalar_mul (modulus_bits : nat) (bases : list G) (scalar : N) : G :=
  fixed_base_loop (to_bits_le modulus_bits scalar) bases zero.

(** The multiplication with the bits of a variable, [GroupVar::scalar_mul]: arkworks/algebra.rs lines
    486-500; the loop is the one of arkworks' [scalar_mul_le], by its contract: doubling the point
    and adding it where a bit is set. *)
Fixpoint scalar_mul_le (bits : list bool) (point result : G) : G :=
  match bits with
  | [] => result
  | b :: t => scalar_mul_le t (double point) (select b (add result point) result)
  end.
Definition var_scalar_mul (modulus_bits : nat) (point : G) (scalar : N) : G :=
  scalar_mul_le (to_bits_le modulus_bits scalar) point zero.
End Window.
