(** The encoding of curve points, accumulators and proofs of the Perpetual Powers of Tau:
    manta-trusted-setup/src/groth16/ppot/serialization.rs, with the deserializers of
    manta-trusted-setup/src/util.rs L57-236 and of manta-trusted-setup/src/groth16/kzg.rs
    L279-412 and L526-690. *)
From Coq Require Import ZArith List Bool.
Import ListNotations.
Local Open Scope Z_scope.

(** serialization.rs L381-398 [PointDeserializeError], with [NonZeroError::IsZero] of util.rs
    L155-161. *)
Inductive perr := ExpectedCompressed | ExpectedUncompressed | PointAtInfinity | ExtraYCoordinate
  | NotOnCurve | NotInSubgroup | WrongCurve | IsZero.

(** The result of a call that can fail or panic. *)
Inductive out (A : Type) := Ok (a : A) | Err (e : perr) | Panic.
Arguments Ok {A}. Arguments Err {A}. Arguments Panic {A}.

Definition bind {A B} (x : out A) (f : A -> out B) : out B :=
  match x with Ok a => f a | Err e => Err e | Panic => Panic end.

(** [std::io::Read]: the chunks in which the bytes arrive. One call of [read] gives no more than
    what is left of one chunk; a slice is a single chunk. *)
Definition reader := list (list Z).
Definition slice (bs : list Z) : reader := match bs with [] => [] | _ => [bs] end.
Definition read (n : nat) (r : reader) : list Z * reader :=
  match r with
  | [] => ([], [])
  | c :: r => (firstn n c, match skipn n c with [] => r | c' => c' :: r end)
  end.
(** [let mut copy = \[0u8; n\]; let _ = reader.read(&mut copy);], as in L59-60. *)
Definition fill (n : nat) (got : list Z) : list Z := got ++ repeat 0 (n - length got).

(** arkworks' affine points: [GroupAffine], a pair of coordinates or the point at infinity. *)
Inductive point (F : Type) := Inf | Aff (x y : F).
Arguments Inf {F}. Arguments Aff {F}.

(** What the code uses of a curve in short Weierstrass form over a field: the number of bytes of a
    coordinate, how it is written ([ToBytes]) and read ([from_be_bytes_mod_order]), negation, the
    order ([Ord]), equality, the square, the right hand side of the curve equation, the square
    root and the subgroup test. The last two are arkworks'. *)
Record curve := Curve {
  F : Type;
  flen : nat;
  fwrite : F -> list Z;
  fread : list Z -> F;
  fneg : F -> F;
  flt : F -> F -> bool;
  feqb : F -> F -> bool;
  fsqr : F -> F;
  frhs : F -> F;
  fsqrt : F -> option F;
  insub : point F -> bool
}.

(** Bit [k] of the first byte, [copy\[0\] & (1 << k) != 0] (L63, L69). *)
Definition flag (k : Z) (copy : list Z) : bool := Z.testbit (hd 0 copy) k.
(** [copy\[0\] &= 0x3f] (L72, L88). *)
Definition mask (copy : list Z) : list Z := match copy with [] => [] | b :: r => Z.land b 63 :: r end.
(** [copy.iter().all(|b| *b == 0)] (L74). *)
Definition all0 (copy : list Z) : bool := forallb (Z.eqb 0) copy.
(** [res\[last\] |= m] (L254, L265). *)
Fixpoint or_last (m : Z) (res : list Z) : list Z :=
  match res with [] => [] | [b] => [Z.lor b m] | b :: res => b :: or_last m res end.

Section Point.
Variable C : curve.

(** arkworks' [is_on_curve]. *)
Definition on_curve (p : point (F C)) : bool :=
  match p with Inf => true | Aff x y => feqb C (fsqr C y) (frhs C x) end.

(** arkworks' [get_point_from_x]. *)
Definition get_point_from_x (x : F C) (greatest : bool) : option (point (F C)) :=
  match fsqrt C (frhs C x) with
  | None => None
  | Some y => let negy := fneg C y in
              Some (Aff x (if xorb (flt C y negy) greatest then y else negy))
  end.

(** L55-96 and L147-193 [deserialize_unchecked]. *)
Definition de_unchecked (r : reader) : out (point (F C)) * reader :=
  let (got, r) := read (2 * flen C) r in
  let copy := fill (2 * flen C) got in
  (if flag 7 copy then Err ExpectedUncompressed
   else if flag 6 copy then
     if all0 (mask copy) then Ok Inf else Err PointAtInfinity
   else if flag 7 copy then Err ExtraYCoordinate
   else let copy := mask copy in
        Ok (Aff (fread C (firstn (flen C) copy)) (fread C (skipn (flen C) copy))), r).

(** L98-105 and L195-202 [check]; L414-426 [curve_point_checks]. *)
Definition check (g : point (F C)) : out unit :=
  if negb (on_curve g) then Err NotOnCurve
  else if negb (insub C g) then Err NotInSubgroup
  else Ok tt.

(** util.rs L128-135 [deserialize_uncompressed]. *)
Definition de_uncompressed (r : reader) : out (point (F C)) * reader :=
  let (o, r) := de_unchecked r in (bind o (fun g => bind (check g) (fun _ => Ok g)), r).

(** L107-141 and L204-241 [deserialize_compressed]. *)
Definition de_compressed (r : reader) : out (point (F C)) * reader :=
  let (got, r) := read (flen C) r in
  let copy := fill (flen C) got in
  (if flag 6 copy then
     if all0 (mask copy) then Ok Inf else Err PointAtInfinity
   else let greatest := flag 7 copy in
        match get_point_from_x (fread C (mask copy)) greatest with
        | Some p => Ok p
        | None => Err NotOnCurve
        end, r).

(** L245-274 and L312-342 [serialize_unchecked]. *)
Definition ser_unchecked (p : point (F C)) : list Z :=
  rev (match p with
       | Inf => or_last 64 (repeat 0 (flen C))
       | Aff x y => let res := fwrite C x in
                    let negy := fneg C y in
                    if flt C negy y then or_last 128 res else res
       end).

(** L276-293 and L344-363 [serialize_uncompressed]. *)
Definition ser_uncompressed (p : point (F C)) : list Z :=
  rev (match p with
       | Inf => or_last 64 (repeat 0 (2 * flen C))
       | Aff x y => fwrite C y ++ fwrite C x
       end).

(** L299-304 and L369-374 [serialize_compressed]. *)
Definition ser_compressed (p : point (F C)) : list Z := ser_unchecked p.

(** L295-297, L306-308, L365-367 and L376-378: the two sizes. *)
Definition uncompressed_size : nat := 2 * flen C.
Definition compressed_size : nat := flen C.

(** util.rs L178-236 [NonZero]. *)
Definition nonzero (g : point (F C)) : out (point (F C)) := match g with Inf => Err IsZero | _ => Ok g end.
Definition nz_uncompressed (r : reader) : out (point (F C)) * reader :=
  let (o, r) := de_uncompressed r in (bind o nonzero, r).
Definition nz_compressed (r : reader) : out (point (F C)) * reader :=
  let (o, r) := de_compressed r in (bind o nonzero, r).
End Point.

(** Bytes of a number, the least significant first ([ToBytes] of a prime field). *)
Fixpoint le (n : nat) (x : Z) : list Z :=
  match n with O => [] | S n => x mod 256 :: le n (x / 256) end.
(** The number of bytes, the most significant first. *)
Definition be (l : list Z) : Z := fold_left (fun a b => a * 256 + b) l 0.

Section Curves.
(** The base field of the first curve, integers modulo [q]; serialization.rs L49-50. *)
Variable q : Z.
(** The constants of the two curve equations. *)
Variable b1 : Z.
Variable b2 : Z * Z.
(** arkworks' square roots and subgroup tests. *)
Variable sqrt1 : Z -> option Z.
Variable sqrt2 : Z * Z -> option (Z * Z).
Variable sub1 : point Z -> bool.
Variable sub2 : point (Z * Z) -> bool.

(** [from_be_bytes_mod_order]. *)
Definition from_be (l : list Z) : Z := be l mod q.

(** L52-142 and L244-309: the first group. *)
Definition g1 : curve := {|
  F := Z; flen := 32;
  fwrite := le 32;
  fread := from_be;
  fneg y := - y mod q;
  flt := Z.ltb;
  feqb := Z.eqb;
  fsqr y := y * y mod q;
  frhs x := (x * x * x + b1) mod q;
  fsqrt := sqrt1;
  insub := sub1
|}.

(** The quadratic extension by a square root of minus one; elements are ordered by the second
    component first. *)
Definition neg2 (a : Z * Z) : Z * Z := (- fst a mod q, - snd a mod q).
Definition add2 (a b : Z * Z) : Z * Z := ((fst a + fst b) mod q, (snd a + snd b) mod q).
Definition mul2 (a b : Z * Z) : Z * Z :=
  ((fst a * fst b - snd a * snd b) mod q, (fst a * snd b + snd a * fst b) mod q).
Definition lt2 (a b : Z * Z) : bool :=
  (snd a <? snd b) || ((snd a =? snd b) && (fst a <? fst b)).
Definition eqb2 (a b : Z * Z) : bool := (fst a =? fst b) && (snd a =? snd b).

(** L144-242 and L311-379: the second group. *)
Definition g2 : curve := {|
  F := Z * Z; flen := 64;
  fwrite x := le 32 (fst x) ++ le 32 (snd x);
  fread l := (from_be (skipn 32 l), from_be (firstn 32 l));
  fneg := neg2;
  flt := lt2;
  feqb := eqb2;
  fsqr y := mul2 y y;
  frhs x := add2 (mul2 (mul2 x x) x) b2;
  fsqrt := sqrt2;
  insub := sub2
|}.
End Curves.

(** L428-435 [Compressed] and L513-526 [ElementType]. *)
Inductive compressed := No | Yes.
Inductive element := TauG1 | TauG2 | AlphaG1 | BetaG1 | BetaG2.

Section File.
Variables C1 C2 : curve.

(** kzg.rs L416-435 [Accumulator] and L206-220 [Proof]: the three ratios and matching points. *)
Record accumulator := Accumulator {
  tau_powers_g1 : list (point (F C1));
  tau_powers_g2 : list (point (F C2));
  alpha_tau_powers_g1 : list (point (F C1));
  beta_tau_powers_g1 : list (point (F C1));
  beta_g2 : point (F C2)
}.
Record ratio_proof := RatioProof { ratio0 : point (F C1); ratio1 : point (F C1); matching : point (F C2) }.
Record proof := Proof { p_tau : ratio_proof; p_alpha : ratio_proof; p_beta : ratio_proof }.

(** kzg.rs L531-549 and L569-587: the accumulator is written. *)
Definition ser_acc_with (s1 : point (F C1) -> list Z) (s2 : point (F C2) -> list Z) (a : accumulator) : list Z :=
  flat_map s1 (tau_powers_g1 a) ++ flat_map s2 (tau_powers_g2 a) ++ flat_map s1 (alpha_tau_powers_g1 a) ++
  flat_map s1 (beta_tau_powers_g1 a) ++ s2 (beta_g2 a).
Definition ser_acc (a : accumulator) : list Z := ser_acc_with (ser_compressed C1) (ser_compressed C2) a.
Definition ser_acc_uncompressed (a : accumulator) : list Z := ser_acc_with (ser_uncompressed C1) (ser_uncompressed C2) a.

(** Calls a reading function [n] times and collects the results. *)
Fixpoint many {A} (n : nat) (d : reader -> out A * reader) (r : reader) : out (list A) * reader :=
  match n with
  | O => (Ok [], r)
  | S n => match d r with
           | (Ok x, r) => match many n d r with
                          | (Ok l, r) => (Ok (x :: l), r)
                          | (Err e, r) => (Err e, r)
                          | (Panic, r) => (Panic, r)
                          end
           | (Err e, r) => (Err e, r)
           | (Panic, r) => (Panic, r)
           end
  end.
Definition andthen {A B} (x : out A * reader) (f : A -> reader -> out B * reader) : out B * reader :=
  match x with (Ok a, r) => f a r | (Err e, r) => (Err e, r) | (Panic, r) => (Panic, r) end.

(** kzg.rs L614-641 and L666-690: the accumulator is read, with [G1_POWERS] = [n1] and
    [G2_POWERS] = [n2]. *)
Definition de_acc_with (d1 : reader -> out (point (F C1)) * reader) (d2 : reader -> out (point (F C2)) * reader)
    (n1 n2 : nat) (r : reader) : out accumulator * reader :=
  andthen (many n1 d1 r) (fun t1 r =>
  andthen (many n2 d2 r) (fun t2 r =>
  andthen (many n2 d1 r) (fun al r =>
  andthen (many n2 d1 r) (fun bt r =>
  andthen (d2 r) (fun b2 r => (Ok (Accumulator t1 t2 al bt b2), r)))))).
Definition de_acc (n1 n2 : nat) (r : reader) := de_acc_with (de_compressed C1) (de_compressed C2) n1 n2 r.
Definition de_acc_unchecked (n1 n2 : nat) (r : reader) := de_acc_with (de_unchecked C1) (de_unchecked C2) n1 n2 r.

(** [try_for_each] in the order of the list; with the feature "rayon" any of the errors may be the
    one returned. *)
Fixpoint each {A} (f : A -> out unit) (l : list A) : out unit :=
  match l with [] => Ok tt | x :: l => bind (f x) (fun _ => each f l) end.

(** kzg.rs L644-663 [deserialize_uncompressed]. *)
Definition de_acc_uncompressed (n1 n2 : nat) (r : reader) : out accumulator * reader :=
  let (o, r) := de_acc_unchecked n1 n2 r in
  (bind o (fun a =>
   bind (each (check C1) (tau_powers_g1 a)) (fun _ =>
   bind (each (check C2) (tau_powers_g2 a)) (fun _ =>
   bind (each (check C1) (alpha_tau_powers_g1 a)) (fun _ =>
   bind (each (check C1) (beta_tau_powers_g1 a)) (fun _ =>
   bind (check C2 (beta_g2 a)) (fun _ => Ok a)))))), r).

(** kzg.rs L284-298 and L314-328: the proof is written. *)
Definition ser_proof_with (s1 : point (F C1) -> list Z) (s2 : point (F C2) -> list Z) (p : proof) : list Z :=
  s1 (ratio0 (p_tau p)) ++ s1 (ratio1 (p_tau p)) ++ s1 (ratio0 (p_alpha p)) ++ s1 (ratio1 (p_alpha p)) ++
  s1 (ratio0 (p_beta p)) ++ s1 (ratio1 (p_beta p)) ++ s2 (matching (p_tau p)) ++ s2 (matching (p_alpha p)) ++
  s2 (matching (p_beta p)).
Definition ser_proof (p : proof) := ser_proof_with (ser_compressed C1) (ser_compressed C2) p.
Definition ser_proof_uncompressed (p : proof) := ser_proof_with (ser_uncompressed C1) (ser_uncompressed C2) p.

(** kzg.rs L349-379 and L382-411: the proof is read. *)
Definition de_proof_with (d1 : reader -> out (point (F C1)) * reader) (d2 : reader -> out (point (F C2)) * reader)
    (r : reader) : out proof * reader :=
  andthen (d1 r) (fun t0 r => andthen (d1 r) (fun t1 r =>
  andthen (d1 r) (fun a0 r => andthen (d1 r) (fun a1 r =>
  andthen (d1 r) (fun b0 r => andthen (d1 r) (fun b1 r =>
  andthen (d2 r) (fun mt r => andthen (d2 r) (fun ma r => andthen (d2 r) (fun mb r =>
    (Ok (Proof (RatioProof t0 t1 mt) (RatioProof a0 a1 ma) (RatioProof b0 b1 mb)), r)))))))))).
Definition de_proof (r : reader) := de_proof_with (nz_compressed C1) (nz_compressed C2) r.
Definition de_proof_uncompressed (r : reader) := de_proof_with (nz_uncompressed C1) (nz_uncompressed C2) r.

Local Open Scope nat_scope.
(** L529-548 [get_size] and L562-565 [is_g1_type]. *)
Definition is_g1_type (e : element) : bool := match e with TauG2 | BetaG2 => false | _ => true end.
Definition get_size (e : element) (c : compressed) : nat :=
  match c with
  | No => if is_g1_type e then 64 else 128
  | Yes => if is_g1_type e then 32 else 64
  end.
(** L550-560 [num_powers]. *)
Definition num_powers (n1 n2 : nat) (e : element) : nat :=
  match e with BetaG2 => 1 | TauG1 => n1 | _ => n2 end.

(** The length [TAU_POWERS_LENGTH] of the lists of the file, 2 to the power 28 in L451-452. *)
Variable len : nat.

(** L437-511 [calculate_mmap_position]; [None] is a failed assertion. *)
Definition position (index : nat) (e : element) (c : compressed) : option nat :=
  let g1_len := 2 * len - 1 in
  let (s1, s2) := match c with No => (64, 128) | Yes => (32, 64) end in
  let at_ p := Some (p + 64) in
  match e with
  | TauG1 => if index <? g1_len then at_ (s1 * index) else None
  | TauG2 => if index <? len then at_ (s1 * g1_len + s2 * index) else None
  | AlphaG1 => if index <? len then at_ (s1 * g1_len + s2 * len + s1 * index) else None
  | BetaG1 => if index <? len then at_ (s1 * g1_len + s2 * len + s1 * len + s1 * index) else None
  | BetaG2 => at_ (s1 * g1_len + s2 * len + s1 * len + s1 * len)
  end.

(** [&reader\[a..b\]]: panics beyond the end. *)
Definition range (file : list Z) (a b : nat) : option (list Z) :=
  if b <=? length file then Some (firstn (b - a) (skipn a file)) else None.

(** L582-605 and L635-658: the loop that reads [n] elements from position [start]. *)
Fixpoint read_loop {A} (d : reader -> out A * reader) (file : list Z) (sz n start : nat) : out (list A) :=
  match n with
  | O => Ok []
  | S n => match range file start (start + sz) with
           | None => Panic
           | Some bs => bind (fst (d (slice bs))) (fun x =>
                        bind (read_loop d file sz n (start + sz)) (fun l => Ok (x :: l)))
           end
  end.

(** L607-617 and L659-669: the checks, which panic for an uncompressed file. *)
Definition checks (C : curve) (c : compressed) (l : list (point (F C))) : out (list (point (F C))) :=
  match c with
  | No => match each (check C) l with Ok _ => Ok l | _ => Panic end
  | Yes => bind (each (fun g => if insub C g then Ok tt else Err NotInSubgroup) l) (fun _ => Ok l)
  end.

(** L568-619 [read_g1_powers] and L621-672 [read_g2_powers]. *)
Definition wrong {A} (r : reader) : out A * reader := (Err WrongCurve, r).
Definition read_g1_powers (n1 n2 : nat) (file : list Z) (e : element) (c : compressed) : out (list (point (F C1))) :=
  match position 0 e c with
  | None => Panic
  | Some start =>
      bind (read_loop (if is_g1_type e then match c with No => de_unchecked C1 | Yes => de_compressed C1 end else wrong)
                      file (get_size e c) (num_powers n1 n2 e) start) (checks C1 c)
  end.
Definition read_g2_powers (n1 n2 : nat) (file : list Z) (e : element) (c : compressed) : out (list (point (F C2))) :=
  match position 0 e c with
  | None => Panic
  | Some start =>
      bind (read_loop (if negb (is_g1_type e) then match c with No => de_unchecked C2 | Yes => de_compressed C2 end else wrong)
                      file (get_size e c) (num_powers n1 n2 e) start) (checks C2 c)
  end.

(** L686-702 [read_subaccumulator]. *)
Definition read_subaccumulator (n1 n2 : nat) (file : list Z) (c : compressed) : out accumulator :=
  bind (read_g1_powers n1 n2 file TauG1 c) (fun t1 =>
  bind (read_g2_powers n1 n2 file TauG2 c) (fun t2 =>
  bind (read_g1_powers n1 n2 file AlphaG1 c) (fun al =>
  bind (read_g1_powers n1 n2 file BetaG1 c) (fun bt =>
  bind (read_g2_powers n1 n2 file BetaG2 c) (fun b2 =>
  match b2 with b :: _ => Ok (Accumulator t1 t2 al bt b) | [] => Panic end))))).

(** L674-684 [read_kzg_proof]; [PpotCeremony] has [len] powers in the second group and
    [2 * len - 1] in the first, ppot/kzg.rs L42-45 and L196-199. *)
Definition read_kzg_proof (file : list Z) : out proof :=
  let position := 64 + ((2 * len - 1) + 2 * len) * 32 + (len + 1) * 64 in
  match range file position (position + (6 * 64 + 3 * 128)) with
  | None => Panic
  | Some bs => fst (de_proof_uncompressed (slice bs))
  end.
End File.
