(** * The start of the second phase: Groth16 parameters from powers of tau
    Source: manta-trusted-setup/src/groth16/mpc.rs, [initialize] and the functions it calls.

    Groups, scalars and the state are those of the models of the ceremony. Affine and projective
    representations of a point are the point. *)
From Coq Require Import List Arith Bool.
From Verif Require Import AlgBase MpModel KzModel.
Import ListNotations.

(** The errors of [initialize]: mpc.rs lines 215-225; a panic is separate. *)
Inductive ierr := ConstraintSystemError | TooManyConstraints | MissingCSMatrices.
Inductive ires (A : Type) := IOk (a : A) | IErr (e : ierr) | IPanic.
Arguments IOk {A} _. Arguments IErr {A} _. Arguments IPanic {A}.

Definition ibind {A B} (x : ires A) (f : A -> ires B) : ires B :=
  match x with IOk a => f a | IErr e => IErr e | IPanic => IPanic end.
Definition unwrap {A} (x : option A) : ires A := match x with Some a => IOk a | None => IPanic end.

Section It.
Variable P : pairing.
Notation K := (sc P).
Notation A1 := (G1 P).
Notation A2 := (G2 P).
(** The two-adicity of the scalar field and its root of unity of the order 2^k. *)
Variable two_adicity : nat.
Variable root_of_unity : nat -> K.

(** A row of a matrix: coefficients and the indices of their variables. *)
Definition row := list (K * nat).

(** arkworks' [ConstraintMatrices], as far as it is used. *)
Record matrices := Matrices {
  num_instance_variables : nat; num_witness_variables : nat; mat_a : list row; mat_b : list row; mat_c : list row
}.

(** The outcome of the synthesis: [generate_constraints] fails, or there is a system with its number
    of constraints and instance variables and the result of [to_matrices]: mpc.rs lines 360-369. *)
Inductive synthesis := Failed | System (num_constraints num_instance : nat) (m : option matrices).

(** [usize::next_power_of_two], its exponent. *)
Definition log_size (n : nat) : nat := Nat.log2_up n.

(** [Radix2EvaluationDomain::new] of arkworks: the size and the generator. *)
Definition domain_new (n : nat) : option (nat * K) :=
  let k := log_size n in
  if Nat.leb k two_adicity then Some (2 ^ k, root_of_unity k) else None.

Fixpoint kpow (x : K) (n : nat) : K := match n with O => f1 | S m => fmul x (kpow x m) end.
Fixpoint kof (n : nat) : K := match n with O => f0 | S m => fadd f1 (kof m) end.
Fixpoint gsum {g : grp K} (n : nat) (f : nat -> g) : g :=
  match n with O => g0 | S m => gadd (gsum m f) (f m) end.

(** [EvaluationDomain::ifft] of arkworks on points, by its contract. The argument is cut or filled
    with zeros to the size of the domain. *)
Definition resize {g : grp K} (n : nat) (l : list g) : list g := firstn n (l ++ repeat g0 n).
Definition ifft {g : grp K} (d : nat * K) (l : list g) : list g :=
  let '(n, w) := d in
  let coeffs := resize n l in
  map (fun i => smul (finv (kof n)) (gsum n (fun k => smul (kpow (finv w) (i * k)) (nth k coeffs g0)))) (seq 0 n).

(** The slice l[a..b]. *)
Definition slice {A} (l : list A) (a b : nat) : option (list A) :=
  if Nat.leb a b && Nat.leb b (length l) then Some (firstn (b - a) (skipn a l)) else None.

(** [a[0..n].clone_from_slice(s)], with [s] of length [n]. *)
Definition put_front {A} (l s : list A) : option (list A) :=
  if Nat.leb (length s) (length l) then Some (s ++ skipn (length s) l) else None.

(** [add_dummy_constraints]: mpc.rs lines 297-312. *)
Definition add_dummy_constraints {A} (a ext tau_lagrange beta_tau_lagrange : list A)
    (num_constraints num_public_inputs : nat) : ires (list A * list A) :=
  let total := num_public_inputs + num_constraints in
  ibind (unwrap (slice tau_lagrange num_constraints total)) (fun s =>
  ibind (unwrap (put_front a s)) (fun a =>
  ibind (unwrap (slice beta_tau_lagrange num_constraints total)) (fun t =>
  ibind (unwrap (put_front ext t)) (fun ext => IOk (a, ext))))).

(** [l[index] += x], with the check of the index. *)
Fixpoint add_at {g : grp K} (l : list g) (i : nat) (x : g) : option (list g) :=
  match l, i with
  | [], _ => None
  | y :: t, O => Some (gadd y x :: t)
  | y :: t, S j => match add_at t j x with Some r => Some (y :: r) | None => None end
  end.

(** The loop over a row: [l[index] += basis * coeff], mpc.rs lines 276-286. The loop of the code
    treats several vectors in one pass; here each has its own. *)
Fixpoint add_row {g : grp K} (basis : g) (r : row) (l : list g) : option (list g) :=
  match r with
  | [] => Some l
  | (c, i) :: t => match add_at l i (smul c basis) with Some l' => add_row basis t l' | None => None end
  end.

(** The queries that are filled. *)
Record queries := Queries { q_a : list A1; q_b1 : list A1; q_b2 : list A2; q_ext : list A1 }.

(** The body of the loop of [specialize_to_phase_2]: mpc.rs lines 275-288. *)
Definition special_row (ra rb rc : row) (t1 : A1) (t2 : A2) (at1 bt1 : A1) (q : queries) : option queries :=
  match add_row t1 ra (q_a q), add_row bt1 ra (q_ext q) with
  | Some a, Some e =>
      match add_row t1 rb (q_b1 q), add_row t2 rb (q_b2 q), add_row at1 rb e with
      | Some b1, Some b2, Some e =>
          match add_row t1 rc e with Some e => Some (Queries a b1 b2 e) | None => None end
      | _, _, _ => None
      end
  | _, _ => None
  end.

(** The zipped iterators end with the shortest: mpc.rs lines 266-275. *)
Fixpoint special_rows (ma mb mc : list row) (t1 : list A1) (t2 : list A2) (at1 bt1 : list A1) (q : queries)
  : option queries :=
  match ma, mb, mc, t1, t2, at1, bt1 with
  | ra :: ma, rb :: mb, rc :: mc, x :: t1, y :: t2, a :: at1, b :: bt1 =>
      match special_row ra rb rc x y a b q with
      | Some q => special_rows ma mb mc t1 t2 at1 bt1 q
      | None => None
      end
  | _, _, _, _, _, _, _ => Some q
  end.

(** [specialize_to_phase_2]: mpc.rs lines 251-290. *)
Definition specialize_to_phase_2 (t1 : list A1) (t2 : list A2) (at1 bt1 : list A1) (ma mb mc : list row) (q : queries)
  : ires queries :=
  if Nat.eqb (length (q_a q)) (length (q_b1 q)) && Nat.eqb (length (q_a q)) (length (q_b2 q)) &&
     Nat.eqb (length (q_a q)) (length (q_ext q))
  then unwrap (special_rows ma mb mc t1 t2 at1 bt1 q) else IPanic.

Definition gsub {g : grp K} (a b : g) : g := gadd a (smul (fopp f1) b).

(** The loop that makes [h_query]: mpc.rs lines 373-378; both indices are checked. *)
Fixpoint h_loop (tau : list A1) (degree : nat) (is : list nat) : option (list A1) :=
  match is with
  | [] => Some []
  | i :: t =>
      match nth_error tau (i + degree), nth_error tau i, h_loop tau degree t with
      | Some x, Some y, Some r => Some (gsub x y :: r)
      | _, _, _ => None
      end
  end.

(** [initialize]: mpc.rs lines 353-431. *)
Definition initialize (powers : accum P) (cs : synthesis) : ires (state P) :=
  match cs with
  | Failed => IErr ConstraintSystemError
  | System num_constraints num_instance m =>
      match domain_new (num_constraints + num_instance), m with
      | None, _ => IErr TooManyConstraints
      | Some _, None => IErr MissingCSMatrices
      | Some d, Some m =>
          let degree := fst d in
          ibind (unwrap (nth_error (beta_tau_g1 powers) 0)) (fun beta1 =>
          ibind (unwrap (h_loop (tau_g1 powers) degree (seq 0 degree))) (fun h =>
          let tau_lagrange_g1 := ifft d (tau_g1 powers) in
          let tau_lagrange_g2 := ifft d (tau_g2 powers) in
          let alpha_lagrange_g1 := ifft d (alpha_tau_g1 powers) in
          let beta_lagrange_g1 := ifft d (beta_tau_g1 powers) in
          let num_witnesses := num_witness_variables m + num_instance_variables m in
          ibind (add_dummy_constraints (repeat g0 num_witnesses) (repeat g0 num_witnesses)
                   tau_lagrange_g1 beta_lagrange_g1 num_constraints num_instance) (fun '(a, ext) =>
          ibind (specialize_to_phase_2 tau_lagrange_g1 tau_lagrange_g2 alpha_lagrange_g1 beta_lagrange_g1
                   (mat_a m) (mat_b m) (mat_c m)
                   (Queries a (repeat g0 num_witnesses) (repeat g0 num_witnesses) ext)) (fun q =>
          ibind (unwrap (slice (q_ext q) 0 (num_instance_variables m))) (fun public_cross_terms =>
          ibind (unwrap (slice (q_ext q) (num_instance_variables m) (length (q_ext q)))) (fun private_cross_terms =>
          ibind (unwrap (nth_error (alpha_tau_g1 powers) 0)) (fun alpha1 =>
          IOk (St alpha1 (kbeta_g2 powers) (gen2 P) (gen2 P) public_cross_terms
                 beta1 (gen1 P) (q_a q) (q_b1 q) (q_b2 q) h private_cross_terms))))))))
      end
  end.
End It.
Arguments Matrices {P} _ _ _ _ _. Arguments System {P} _ _ _. Arguments Failed {P}.
Arguments num_instance_variables {P} _. Arguments num_witness_variables {P} _.
Arguments mat_a {P} _. Arguments mat_b {P} _. Arguments mat_c {P} _.
Arguments kpow {P} _ _. Arguments kof {P} _. Arguments gsum {P g} _ _. Arguments resize {P g} _ _. Arguments ifft {P g} _ _.
Arguments add_at {P g} _ _ _. Arguments add_row {P g} _ _ _. Arguments Queries {P} _ _ _ _.
Arguments q_a {P} _. Arguments q_b1 {P} _. Arguments q_b2 {P} _. Arguments q_ext {P} _.
Arguments special_row {P} _ _ _ _ _ _ _ _. Arguments special_rows {P} _ _ _ _ _ _ _ _.
Arguments specialize_to_phase_2 {P} _ _ _ _ _ _ _ _. Arguments gsub {P g} _ _. Arguments h_loop {P} _ _ _.
Arguments initialize {P} _ _ _ _. Arguments domain_new {P} _ _ _.
