(** * Sampling for the powers of tau, and fuzzing
    Source: manta-trusted-setup/src/groth16/ppot/hashing.rs, manta-trusted-setup/src/util.rs, manta-crypto/src/rand.rs.

    A generator is the list of the words of 32 bits that it will give; [None] says that a sampler needs more of them, or, for
    fuzzing, a panic. *)
From Coq Require Import List ZArith Bool.
Import ListNotations.
Local Open Scope Z_scope.

(** util.rs lines 420-436: the seed of [hash_to_group]. [read] of a slice takes what is there: manta-util codec. *)
Fixpoint seed_words (n : nat) (digest : list Z) : list Z :=
  match n with
  | O => []
  | S n => rev (firstn 4 digest) ++ seed_words n (skipn 4 digest)
  end.
Definition seed_of (digest : list Z) : option (list Z) :=
  if (length digest <? 32)%nat then None else Some (seed_words 8 digest).

(** hashing.rs lines 126-133 and 135-142. *)
Definition sample_u64 (ws : list Z) : option (Z * list Z) :=
  match ws with
  | a :: b :: r => Some (Z.lor (Z.shiftl a 32) b, r)
  | _ => None
  end.
Definition sample_bool (ws : list Z) : option (bool * list Z) :=
  match ws with
  | a :: r => Some (Z.land (a mod 2 ^ 8) 1 =? 1, r)
  | _ => None
  end.

(** hashing.rs lines 112-124: limbs, the lowest first. *)
Definition sample_limbs (ws : list Z) : option ((Z * Z * Z * Z) * list Z) :=
  match sample_u64 ws with
  | None => None
  | Some (a, ws) =>
      match sample_u64 ws with
      | None => None
      | Some (b, ws) =>
          match sample_u64 ws with
          | None => None
          | Some (c, ws) =>
              match sample_u64 ws with
              | None => None
              | Some (d, ws) => Some ((a, b, c, d), ws)
              end
          end
      end
  end.
Definition big (l : Z * Z * Z * Z) : Z :=
  let '(a, b, c, d) := l in a + 2 ^ 64 * (b + 2 ^ 64 * (c + 2 ^ 64 * d)).

Section Field.
(** [MODULUS] and [REPR_SHAVE_BITS] of the field. *)
Variables modulus shave : Z.

(** hashing.rs lines 93-99: the mask, and the comparison. *)
Definition candidate (l : Z * Z * Z * Z) : option Z :=
  let '(a, b, c, d) := l in
  let v := big (a, b, c, Z.land d (Z.shiftr (2 ^ 64 - 1) shave)) in
  if v <? modulus then Some v else None.

(** hashing.rs lines 87-102, with a bound on the turns of the loop. What is sampled is the representation of the
    element: [Fp256::new]. *)
Fixpoint sample_fq (turns : nat) (ws : list Z) : option (Z * list Z) :=
  match turns with
  | O => None
  | S turns =>
      match sample_limbs ws with
      | None => None
      | Some (l, ws) => match candidate l with Some v => Some (v, ws) | None => sample_fq turns ws end
      end
  end.
(** hashing.rs lines 103-110. *)
Definition sample_fq2 (turns : nat) (ws : list Z) : option ((Z * Z) * list Z) :=
  match sample_fq turns ws with
  | None => None
  | Some (a, ws) => match sample_fq turns ws with Some (b, ws) => Some ((a, b), ws) | None => None end
  end.

(** hashing.rs lines 65-85, with the functions of arkworks. *)
Section Point.
Context {P : Type}.
Variable point_from_x : Z * Z -> bool -> option P.
Variable scale_by_cofactor : P -> P.
Variable is_zero : P -> bool.
Fixpoint sample_point (turns : nat) (ws : list Z) : option (P * list Z) :=
  match turns with
  | O => None
  | S turns' =>
      match sample_fq2 turns ws with
      | None => None
      | Some (x, ws) =>
          match sample_bool ws with
          | None => None
          | Some (greatest, ws) =>
              match point_from_x x greatest with
              | None => sample_point turns' ws
              | Some p => let p := scale_by_cofactor p in
                          if is_zero p then sample_point turns' ws else Some (p, ws)
              end
          end
      end
  end.
End Point.
End Field.

(** ** Fuzzing: rand.rs lines 538-661. The position is what [gen_range] gives. *)

(** Lines 565-574 and 578-586. *)
Definition to_bits_le (n : nat) (x : Z) : list bool :=
  map (fun i => 0 <? Z.land (Z.shiftl 1 (Z.of_nat i)) x) (List.seq 0 n).
Fixpoint from_bits (i : nat) (result : Z) (bits : list bool) : Z :=
  match bits with
  | [] => result
  | b :: t => from_bits (S i) (if b then Z.lor result (Z.shiftl 1 (Z.of_nat i)) else result) t
  end.
Definition from_bits_le (bits : list bool) : Z := from_bits 0 0 bits.

(** Lines 606-620. *)
Definition fuzz_list {T} (fuzz : T -> T) (position : nat) (l : list T) : option (list T) :=
  match nth_error l position with
  | None => None
  | Some x => Some (firstn position l ++ fuzz x :: skipn (S position) l)
  end.
(** Lines 590-602, with [negb] of lines 552-562 for the bits. *)
Definition fuzz_u8 (position : nat) (x : Z) : option Z :=
  option_map from_bits_le (fuzz_list negb position (to_bits_le 8 x)).
(** Lines 628-639: the bits of a big integer, the highest first; arkworks' conversions are those of above in reverse order. *)
Definition fuzz_big (bits position : nat) (x : Z) : option Z :=
  option_map (fun l => from_bits_le (rev l)) (fuzz_list negb position (rev (to_bits_le bits x))).
(** Lines 647-660. *)
Definition fuzz_field (modulus : Z) (bits position : nat) (x : Z) : option Z :=
  option_map (fun v => v mod modulus) (fuzz_big bits position x).
