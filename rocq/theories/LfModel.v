(** The shift register that generates the round constants of Poseidon, and their sampling.
    manta-pay/src/crypto/poseidon/{lfsr,round_constants}.rs. *)
From Coq Require Import List Arith NArith Bool.
From Verif Require Import PxModel.
Import ListNotations.

(** lfsr.rs L40-41 [SIZE]. *)
Definition SIZE : nat := 80.

(** lfsr.rs L30-37 [GrainLFSR]: a circular buffer. *)
Record lfsr := Lfsr { state : list bool; head : nat }.

(** lfsr.rs L78-84 [set_next]; its result is its argument. *)
Definition set_next (l : lfsr) (next : bool) : lfsr :=
  Lfsr (set_nth (head l) next (state l)) ((head l + 1) mod SIZE).

(** lfsr.rs L87-90 [bit]. *)
Definition bit (l : lfsr) (index : nat) : bool := nth ((index + head l) mod SIZE) (state l) false.

(** lfsr.rs L92-97 [update]. *)
Definition update (l : lfsr) : bool * lfsr :=
  let next := xorb (xorb (xorb (xorb (xorb (bit l 62) (bit l 51)) (bit l 38)) (bit l 23)) (bit l 13)) (bit l 0) in
  (next, set_next l next).

(** lfsr.rs L61-66 [append_seed_bits]; [bits >> i] panics for [i >= 128], no caller has that. *)
Definition append_seed_bits (l : lfsr) (n : nat) (bits : N) : lfsr :=
  fold_left (fun l i => set_next l (N.testbit bits (N.of_nat i))) (rev (seq 0 n)) l.

(** lfsr.rs L69-74 [skip_updates]. *)
Fixpoint skip_updates (n : nat) (l : lfsr) : lfsr :=
  match n with 0 => l | S n => skip_updates n (snd (update l)) end.

(** lfsr.rs L44-58 [from_seed]. *)
Definition from_seed (iter : list (nat * N)) : lfsr :=
  let l := Lfsr (repeat false SIZE) 0 in
  let l := fold_left (fun l x => append_seed_bits l (fst x) (snd x)) iter l in
  skip_updates (SIZE * 2) l.

(** lfsr.rs L103-110 [next]: the loop runs at most [fuel] times; nothing when that is not
    enough. *)
Fixpoint next_loop (fuel : nat) (b : bool) (l : lfsr) : option (bool * lfsr) :=
  if b then Some (update l) else
  match fuel with
  | 0 => None
  | S fuel => let l := snd (update l) in let '(b, l) := update l in next_loop fuel b l
  end.
Definition next (fuel : nat) (l : lfsr) : option (bool * lfsr) :=
  let '(b, l) := update l in next_loop fuel b l.

(** [iter.by_ref().take(n).collect()] of round_constants.rs L35. *)
Fixpoint take_bits (fuel n : nat) (l : lfsr) : option (list bool * lfsr) :=
  match n with
  | 0 => Some ([], l)
  | S n =>
      match next fuel l with
      | None => None
      | Some (b, l) => match take_bits fuel n l with Some (bs, l) => Some (b :: bs, l) | None => None end
      end
  end.

(** ark-ff [from_bits_be]: a number, the highest bit first. *)
Definition from_bits_be (bits : list bool) : N :=
  fold_left (fun acc (b : bool) => if b then N.succ_double acc else N.double acc) bits 0%N.

(** arkworks.rs L86-89 [try_from_bits_be]: ark-ff [from_repr] refuses numbers that are not below
    the modulus. A field element is its number here. *)
Definition try_from_bits_be (modulus : N) (bits : list bool) : option N :=
  let n := from_bits_be bits in if N.ltb n modulus then Some n else None.

(** round_constants.rs L26-40 [sample_field_element]; [tries] bounds the rejections. *)
Fixpoint sample_field_element (fuel tries modulus_bits : nat) (modulus : N) (l : lfsr) : option (N * lfsr) :=
  match tries with
  | 0 => None
  | S tries =>
      match take_bits fuel modulus_bits l with
      | None => None
      | Some (bits, l) =>
          match try_from_bits_be modulus bits with
          | Some f => Some (f, l)
          | None => sample_field_element fuel tries modulus_bits modulus l
          end
      end
  end.

(** round_constants.rs L43-58 [generate_lfsr]. *)
Definition generate_lfsr (modulus_bits width full_rounds partial_rounds : N) : lfsr :=
  from_seed [(2, 1%N); (4, 0%N); (12, modulus_bits); (12, width); (10, full_rounds); (10, partial_rounds); (30, 1073741823%N)].

(** The [collect] of round_constants.rs L70-75. *)
Fixpoint sample_many (fuel tries modulus_bits : nat) (modulus : N) (n : nat) (l : lfsr) : option (list N) :=
  match n with
  | 0 => Some []
  | S n =>
      match sample_field_element fuel tries modulus_bits modulus l with
      | None => None
      | Some (f, l) => option_map (cons f) (sample_many fuel tries modulus_bits modulus n l)
      end
  end.

(** round_constants.rs L63-76 [generate_round_constants]. *)
Definition generate_round_constants (fuel tries modulus_bits : nat) (modulus : N) (width full partial : nat) : option (list N) :=
  sample_many fuel tries modulus_bits modulus (width * (full + partial))
    (generate_lfsr (N.of_nat modulus_bits) (N.of_nat width) (N.of_nat full) (N.of_nat partial)).
