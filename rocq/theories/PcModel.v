(** * Poseidon and Merkle paths as circuits
    Source: manta-pay/src/crypto/poseidon/{arkworks,mod,hash}.rs, manta-crypto/src/merkle_tree/path.rs
    (module constraint), manta-crypto/src/merkle_tree/tree.rs, manta-crypto/src/arkworks/constraint/mod.rs.

    Circuits are those of [GdModel]: they run on a tape of values for the witnesses. The operations of
    arkworks on variables ([FpVar], [Boolean]) are not in the repository; they are written down here with
    the witnesses and constraints of r1cs-std 0.3. *)
From Coq Require Import List ZArith NArith.
From Verif Require Import WmModel GdModel MtModel.
Import ListNotations.
Local Open Scope Z_scope.

(** [FpVar] of arkworks: a constant or a linear combination of variables, with its value. *)
Inductive fpvar := Const (v : Z) | Var (v : Z).
Definition value (x : fpvar) : Z := match x with Const v => v | Var v => v end.

(** Loops of circuits. *)
Fixpoint each {A B} (f : nat -> A -> circuit B) (i : nat) (l : list A) : circuit (list B) :=
  match l with
  | [] => ret []
  | a :: t => b <- f i a ;; r <- each f (S i) t ;; ret (b :: r)
  end.
Fixpoint loop {A} (f : nat -> A -> circuit A) (is : list nat) (a : A) : circuit A :=
  match is with
  | [] => ret a
  | i :: t => b <- f i a ;; loop f t b
  end.

Section Field.
(** The modulus of the constraint field. *)
Variable q : Z.

(** Sum, and multiplication with a constant: no constraint. arkworks.rs lines 166-177 and 184-200. *)
Definition fp_add (x y : fpvar) : fpvar :=
  match x, y with
  | Const a, Const b => Const ((a + b) mod q)
  | _, _ => Var ((value x + value y) mod q)
  end.
Definition fp_add_const (x : fpvar) (c : Z) : fpvar := fp_add x (Const c).
Definition fp_mul_const (x : fpvar) (c : Z) : fpvar :=
  match x with
  | Const a => Const ((a * c) mod q)
  | Var a => Var ((a * c) mod q)
  end.

(** Product of arkworks: a witness and a constraint for two variables. *)
Definition fp_mul (x y : fpvar) : circuit fpvar :=
  match x, y with
  | Var a, Var b =>
      p <- new_witness q ;; _ <- enforce_equal q (a * b) p ;; ret (Var p)
  | x, Const c => ret (fp_mul_const x c)
  | Const c, y => ret (fp_mul_const y c)
  end.

(** [pow_by_constant] of arkworks: from one, squared for each bit of the exponent from the highest, and
    multiplied for the bits that are set. *)
Fixpoint pow_pos (x : fpvar) (e : positive) : circuit fpvar :=
  match e with
  | xH => s <- fp_mul (Const (1 mod q)) (Const (1 mod q)) ;; fp_mul s x
  | xO e => r <- pow_pos x e ;; fp_mul r r
  | xI e => r <- pow_pos x e ;; s <- fp_mul r r ;; fp_mul s x
  end.
Definition pow_by_constant (x : fpvar) (e : N) : circuit fpvar :=
  match e with N0 => ret (Const (1 mod q)) | Npos e => pow_pos x e end.

Section Poseidon.
(** [SBOX_EXPONENT], [WIDTH], [FULL_ROUNDS], [PARTIAL_ROUNDS], the round keys and the matrix:
    mod.rs lines 91-106 and 281-285, arkworks.rs line 41. The last two are constants of the circuit:
    mod.rs lines 442-465. *)
Variable exponent : N.
Variables width full_rounds partial_rounds : nat.
Variables keys mds_matrix : list Z.

(** arkworks.rs lines 204-209. *)
Definition apply_sbox (x : fpvar) : circuit fpvar := pow_by_constant x exponent.

(** mod.rs lines 354-357. *)
Definition additive_keys (round : nat) : list Z := firstn width (skipn (round * width) keys).

(** mod.rs lines 361-381; [unwrap] of the reduction of an empty row, which panics, gives zero. *)
Fixpoint row_products (i j : nat) (st : list fpvar) : list fpvar :=
  match st with
  | [] => []
  | x :: t => fp_mul_const x (nth (width * i + j) mds_matrix 0) :: row_products i (S j) t
  end.
Definition reduce (l : list fpvar) : fpvar :=
  match l with [] => Const 0 | x :: t => fold_left fp_add t x end.
Definition mds_multiply (st : list fpvar) : list fpvar :=
  map (fun i => reduce (row_products i 0 st)) (List.seq 0 width).

(** mod.rs lines 385-392 and 396-403. *)
Definition full_round_var (round : nat) (st : list fpvar) : circuit (list fpvar) :=
  let ks := additive_keys round in
  st <- each (fun i x => apply_sbox (fp_add_const x (nth i ks 0))) 0 st ;;
  ret (mds_multiply st).
Fixpoint add_keys (ks : list Z) (i : nat) (st : list fpvar) : list fpvar :=
  match st with [] => [] | x :: t => fp_add_const x (nth i ks 0) :: add_keys ks (S i) t end.
Definition partial_round_var (round : nat) (st : list fpvar) : circuit (list fpvar) :=
  match add_keys (additive_keys round) 0 st with
  | [] => panic
  | x :: t => y <- apply_sbox x ;; ret (mds_multiply (y :: t))
  end.

(** mod.rs lines 407-419. *)
Definition rest_var (st : list fpvar) : circuit (list fpvar) :=
  let half := Nat.div full_rounds 2 in
  st <- loop full_round_var (List.seq 1 (half - 1)) st ;;
  st <- loop partial_round_var (List.seq half partial_rounds) st ;;
  loop full_round_var (List.seq (half + partial_rounds) (full_rounds + partial_rounds - (half + partial_rounds))) st.

(** mod.rs lines 424-439. *)
Definition first_round_var (tag : fpvar) (input : list fpvar) : circuit (list fpvar) :=
  st <- each (fun i x => apply_sbox (fp_add_const x (nth i keys 0))) 0 (tag :: input) ;;
  ret (mds_multiply st).

(** hash.rs lines 113-123 and 150-152. The domain tag is a constant: hash.rs lines 135-137 and 106-108, and
    arkworks.rs lines 211-214. *)
Definition hash_var (tag : Z) (input : list fpvar) : circuit fpvar :=
  st <- first_round_var (Const tag) input ;;
  st <- rest_var st ;;
  match st with [] => panic | x :: _ => ret x end.
End Poseidon.

(** [is_eq] of arkworks, for [PartialEq::eq] of constraint/mod.rs lines 396-401. For variables a
    boolean that says that they differ and a multiplier: (a - b) * multiplier = differ and
    (a - b) * (1 - differ) = 0. *)
Definition is_eq_var (x y : fpvar) : circuit Z :=
  match x, y with
  | Const a, Const b => ret (if a =? b then 1 else 0)
  | _, _ =>
      let d := value x - value y in
      differ <- new_boolean q ;;
      multiplier <- new_witness q ;;
      _ <- enforce_equal q (d * multiplier) differ ;;
      _ <- enforce_equal q (d * (1 - differ)) 0 ;;
      ret (1 - differ)
  end.

(** [Assert::assert]: constraint/mod.rs lines 161-164; [assert_equal]: eclair/cmp.rs lines 54-60. *)
Definition assert_var (b : Z) : circuit unit := enforce_equal q b 1.
Definition assert_eq_var (x y : fpvar) : circuit unit := b <- is_eq_var x y ;; assert_var b.

(** [ConditionalSelect] and [ConditionalSwap] for [FpVar]: constraint/mod.rs lines 408-431, with a bit that is a variable.
    For two constants arkworks makes no witness. *)
Definition select_fp (bit : Z) (true_value false_value : fpvar) : circuit fpvar :=
  match true_value, false_value with
  | Const t, Const f => ret (Var ((bit * t + (1 - bit) * f) mod q))
  | _, _ => r <- select_var q bit (value true_value) (value false_value) ;; ret (Var r)
  end.
Definition swap_fp (bit : Z) (lhs rhs : fpvar) : circuit (fpvar * fpvar) :=
  a <- select_fp bit rhs lhs ;; b <- select_fp bit lhs rhs ;; ret (a, b).

(** [PathVar] with [InnerPathVar]: path.rs lines 943-958 and 1076-1086. *)
Record path_var := PathVar {
  pv_sibling : fpvar; pv_leaf_index : Z; pv_inner_indices : list Z; pv_path : list fpvar
}.

Fixpoint new_witnesses (n : nat) : circuit (list fpvar) :=
  match n with
  | O => ret []
  | S m => v <- new_witness q ;; t <- new_witnesses m ;; ret (Var v :: t)
  end.

(** [new_unknown] and [new_known]: path.rs lines 1158-1171 and 1048-1072. There are as many indices as the
    tree has levels and, for [new_known], as many digests as the native path has. *)
Definition allocate_path (levels digests : nat) : circuit path_var :=
  s <- new_witness q ;;
  b <- new_boolean q ;;
  bs <- new_booleans q levels ;;
  ds <- new_witnesses digests ;;
  ret (PathVar (Var s) b bs ds).

(** The values that [new_known] gives to the witnesses; [parents] is node.rs lines 291-293. *)
Definition right_bit (i : nat) : Z := if is_left i then 0 else 1.
Fixpoint parent_bits (levels i : nat) : list Z :=
  match levels with O => [] | S n => right_bit (parent i) :: parent_bits n (parent i) end.
Definition known_values (levels : nat) (p : path Z Z) : list Z :=
  p_sibling p :: right_bit (p_index p) :: parent_bits levels (p_index p) ++ p_inner p.

Section Path.
(** [join_with] and [join_leaves_with] of the parameters: tree.rs lines 661-680. *)
Variables join_with join_leaves_with : fpvar -> fpvar -> circuit fpvar.

(** path.rs lines 1002-1034: the zipped iterators end with the shorter. *)
Fixpoint fold_var (base : fpvar) (bits : list Z) (ds : list fpvar) : circuit fpvar :=
  match bits, ds with
  | b :: bits, d :: ds =>
      s <- swap_fp b base d ;;
      r <- join_with (fst s) (snd s) ;;
      fold_var r bits ds
  | _, _ => ret base
  end.

(** path.rs lines 968-1000 and 1096-1104. *)
Definition root_var (p : path_var) (leaf : fpvar) : circuit fpvar :=
  s <- swap_fp (pv_leaf_index p) leaf (pv_sibling p) ;;
  base <- join_leaves_with (fst s) (snd s) ;;
  fold_var base (pv_inner_indices p) (pv_path p).

(** path.rs lines 1110-1122 and 1127-1144. The digest of a leaf is the leaf: manta-pay/src/config/utxo.rs line 1191. *)
Definition verify_var (p : path_var) (root leaf : fpvar) : circuit Z :=
  computed <- root_var p leaf ;; is_eq_var root computed.

(** [assert_valid]: tree.rs lines 882-891. *)
Definition assert_valid_var (p : path_var) (root leaf : fpvar) : circuit unit :=
  computed <- root_var p leaf ;; assert_eq_var root computed.
End Path.
End Field.
