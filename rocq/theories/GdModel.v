(** * Arithmetic in circuits: ranges, sums, selection and remainders
    Source: manta-crypto/src/arkworks/constraint/mod.rs, manta-crypto/src/eclair/num.rs and
    manta-crypto/src/arkworks/algebra.rs.

    A circuit over the field of [q] elements is run on a tape of values for its witnesses, chosen by
    whoever makes a proof. It gives a result and says if all its constraints hold. A panic during the
    synthesis is separate. Variables are their values, numbers from 0 to [q - 1]. *)
From Coq Require Import List ZArith.
From Verif Require Import WmModel.
Import ListNotations.
Local Open Scope Z_scope.

Definition circuit (A : Type) : Type := list Z -> res (A * (bool * list Z)).
Definition ret {A} (a : A) : circuit A := fun tape => Ok (a, (true, tape)).
Definition panic {A} : circuit A := fun _ => Panic.
Definition seq {A B} (c : circuit A) (k : A -> circuit B) : circuit B := fun tape =>
  match c tape with
  | Ok (a, (s1, tape1)) =>
      match k a tape1 with
      | Ok (b, (s2, tape2)) => Ok (b, (andb s1 s2, tape2))
      | Panic => Panic
      end
  | Panic => Panic
  end.
Notation "x <- c ;; k" := (seq c (fun x => k)) (at level 100, c at next level, right associativity).

(** A constraint. *)
Definition enforce (b : bool) : circuit unit := fun tape => Ok (tt, (b, tape)).

Section Field.
(** The modulus of the constraint field and the number of its bits, [MODULUS_BITS]. *)
Variable q : Z.
Variable modulus_bits : nat.

(** [FpVar::new_witness]: the next value of the tape. *)
Definition new_witness : circuit Z := fun tape =>
  match tape with [] => Ok (0, (true, [])) | v :: t => Ok (v mod q, (true, t)) end.

(** [Boolean::new_witness] of arkworks: a witness with the constraint b * (1 - b) = 0. *)
Definition new_boolean : circuit Z :=
  b <- new_witness ;; _ <- enforce ((b * (1 - b)) mod q =? 0) ;; ret b.

(** [enforce_equal] of arkworks. *)
Definition enforce_equal (a b : Z) : circuit unit := enforce ((a - b) mod q =? 0).

Fixpoint new_booleans (n : nat) : circuit (list Z) :=
  match n with
  | O => ret []
  | S m => b <- new_boolean ;; t <- new_booleans m ;; ret (b :: t)
  end.

(** The number with the given bits. *)
Fixpoint weigh (bits : list Z) : Z := match bits with [] => 0 | b :: t => b + 2 * weigh t end.

(** [FpVar::to_bits_le] of arkworks: [MODULUS_BITS] new booleans whose weighted sum is the value;
    the comparison with the modulus, [Boolean::enforce_in_field_le], is modelled by its contract. *)
Definition to_bits (value : Z) : circuit (list Z) :=
  bits <- new_booleans modulus_bits ;;
  _ <- enforce_equal (weigh bits) value ;;
  _ <- enforce (weigh bits <? q) ;;
  ret bits.

Fixpoint enforce_all_false (bits : list Z) : circuit unit :=
  match bits with
  | [] => ret tt
  | b :: t => _ <- enforce_equal b 0 ;; enforce_all_false t
  end.

(** [AssertWithinBitRange::assert_within_range] for [FpVar]: constraint/mod.rs lines 312-325. *)
Definition assert_within_range (bits : nat) (value : Z) : circuit unit :=
  if Nat.ltb bits modulus_bits then
    value_bits <- to_bits value ;; enforce_all_false (skipn bits value_bits)
  else panic.

(** [UnsignedInteger::new]: eclair/num.rs lines 137-144. *)
Definition uint_new (bits : nat) (value : Z) : circuit Z := _ <- assert_within_range bits value ;; ret value.

(** [new_unknown] and [new_known] of an unsigned integer as a secret: eclair/num.rs lines 386-394. *)
Definition uint_allocate (bits : nat) : circuit Z := v <- new_witness ;; uint_new bits v.

(** [Add] and [Mul] for [UnsignedInteger]: eclair/num.rs lines 215-218 and 239-242; the sum of two
    variables is constraint/mod.rs lines 440-444. There is no instance of [Mul] for [FpVar]. *)
Definition uint_add (bits : nat) (a b : Z) : circuit Z := uint_new bits ((a + b) mod q).
Definition uint_mul (bits : nat) (a b : Z) : circuit Z := uint_new bits ((a * b) mod q).

(** [Transfer::value_sum]: manta-accounting/src/transfer/mod.rs lines 974-983, the reduction of a
    list that is not empty. *)
Fixpoint sum_from (bits : nat) (acc : Z) (values : list Z) : circuit Z :=
  match values with
  | [] => ret acc
  | v :: t => s <- uint_add bits acc v ;; sum_from bits s t
  end.
Definition value_sum (bits : nat) (values : list Z) : circuit Z :=
  match values with [] => panic | v :: t => sum_from bits v t end.

(** [ConditionalSelect::select] for [FpVar]: constraint/mod.rs lines 408-417 and 80-89. arkworks makes a
    witness for the result with the constraint bit * (true - false) = result - false. *)
Definition select_var (bit true_value false_value : Z) : circuit Z :=
  r <- new_witness ;;
  _ <- enforce_equal (bit * (true_value - false_value)) (r - false_value) ;;
  ret r.

(** [ConditionalSwap::swap] for [FpVar]: constraint/mod.rs lines 424-431. *)
Definition swap_var (bit lhs rhs : Z) : circuit (Z * Z) :=
  a <- select_var bit rhs lhs ;; b <- select_var bit lhs rhs ;; ret (a, b).

(** [FpVar::enforce_cmp] of arkworks for "less", by its contract: both operands have to be at most
    (q - 1) / 2. *)
Definition enforce_less (a b : Z) : circuit unit :=
  _ <- enforce (a <=? (q - 1) / 2) ;; _ <- enforce (b <=? (q - 1) / 2) ;; enforce (a <? b).

(** [BigInteger::num_bits] of arkworks. *)
Definition num_bits (v : Z) : Z := if v =? 0 then 0 else Z.log2 v + 1.

(** [convert_bits] into an integer of [limbs] words of 64 bits: arkworks/algebra.rs lines 68-76. *)
Definition convert_bits (limbs : Z) (v : Z) : Z := v mod 2 ^ (64 * limbs).

(** [modulus_is_smaller]: arkworks/algebra.rs lines 78-92. *)
Definition modulus_is_smaller (limbs_a a limbs_b b : Z) : bool :=
  if num_bits a <=? num_bits b then convert_bits limbs_b a <? b else a <? convert_bits limbs_a b.

(** [div_rem_mod_prime] and [rem_mod_prime]: constraint/mod.rs lines 519-551. The quotient is an
    element of the constraint field. *)
Definition div_rem_mod_prime (l v : Z) : Z * Z := ((v / l) mod q, v mod l).
Definition rem_mod_prime (l v : Z) : Z := snd (div_rem_mod_prime l v).

(** [Rem<PrimeModulus<R>>] for [FpVar]: constraint/mod.rs lines 480-516. The two witnesses are the
    next values of the tape; [honest_rem] gives the values that the code uses. *)
Definition rem_var (limbs_l l limbs_q v : Z) : circuit Z :=
  if modulus_is_smaller limbs_l l limbs_q q then
    quotient <- new_witness ;;
    remainder <- new_witness ;;
    _ <- enforce_equal v (quotient * l + remainder) ;;
    _ <- enforce_less remainder l ;;
    ret remainder
  else panic.
Definition honest_rem (l v : Z) : list Z :=
  let '(quotient, remainder) := div_rem_mod_prime l v in [quotient; remainder mod q].

(** [lift_embedded_scalar]: arkworks/algebra.rs lines 119-137. *)
Definition lift_embedded_scalar (limbs_l l limbs_q v : Z) : res Z :=
  if modulus_is_smaller limbs_l l limbs_q q then Ok (v mod q) else Panic.
End Field.

(** [define_uint]: eclair/num.rs lines 362-371, the number in the name and the number of bits. *)
Definition uint_types : list (Z * Z) :=
  [(8, 8); (9, 9); (10, 10); (11, 11); (12, 12); (13, 13); (14, 14); (15, 15); (16, 16); (32, 32); (64, 64);
   (65, 65); (66, 66); (67, 67); (68, 68); (69, 69); (70, 70); (80, 80); (90, 90); (100, 100); (110, 100);
   (111, 111); (112, 112); (113, 113); (114, 114); (115, 115); (116, 116); (117, 117); (118, 118); (119, 119);
   (120, 120); (121, 121); (122, 122); (123, 123); (124, 124); (125, 125); (126, 126); (127, 127);
   (128, 128); (129, 129); (130, 130); (131, 131); (132, 132); (133, 133); (134, 134); (135, 135); (136, 136);
   (137, 137); (138, 138); (139, 139); (140, 140); (150, 150); (160, 160); (170, 170); (180, 180);
   (190, 190); (200, 200); (210, 210); (220, 220); (230, 230); (240, 240); (250, 250); (251, 251); (252, 252);
   (253, 253); (254, 254); (255, 255); (256, 256)].
