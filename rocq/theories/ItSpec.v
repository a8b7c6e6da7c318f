(** What Groth16 parameters of a constraint system are. *)
From Coq Require Import List Arith Bool.
From Verif Require Import AlgBase MpModel KzModel KzSpec ItModel.
Import ListNotations.

Section Spec.
Variable P : pairing.
Notation K := (sc P).
Local Open Scope alg_scope.

Fixpoint sum (n : nat) (f : nat -> K) : K := match n with O => f0 | S m => sum m f + f m end.

(** A polynomial is the list of its coefficients. *)
Definition poly_eval (p : list K) (x : K) : K := sum (length p) (fun k => nth k p f0 * fpow x k).

(** The values of the polynomial of degree below [n] at the powers of [w]. *)
Definition interpolates (n : nat) (w : K) (p : list K) (f : nat -> K) : Prop :=
  length p = n /\ forall i, i < n -> poly_eval p (fpow w i) = f i.

(** [w] is a root of unity of the order [n], and [n] is not zero in the field. *)
Record root_of_order (n : nat) (w : K) : Prop := RootOfOrder {
  root_one : fpow w n = f1;
  root_primitive : forall m, 0 < m < n -> fpow w m <> f1;
  root_size : sum n (fun _ => f1) <> f0
}.

(** The entry of a row at a variable: coefficients of one variable are added. *)
Fixpoint entry (r : row P) (j : nat) : K :=
  match r with [] => f0 | (c, i) :: t => (if Nat.eqb i j then c else f0) + entry t j end.

(** The column of a matrix, by constraint. *)
Definition column (m : list (row P)) (j i : nat) : K := entry (nth i m []) j.

(** The column of the first matrix with a further constraint for every instance variable. *)
Definition column_a (m : matrices P) (j i : nat) : K :=
  let c := length (mat_a m) in
  column (mat_a m) j i + (if Nat.ltb j (num_instance_variables m) && Nat.eqb i (c + j) then f1 else f0).

Definition num_variables (m : matrices P) : nat := num_witness_variables m + num_instance_variables m.

(** All matrices have a row per constraint and no other variables. *)
Definition rows_ok (m : matrices P) (l : list (row P)) : Prop :=
  length l = length (mat_a m) /\ Forall (Forall (fun c => snd c < num_variables m)) l.
Definition well_formed (m : matrices P) : Prop :=
  rows_ok m (mat_a m) /\ rows_ok m (mat_b m) /\ rows_ok m (mat_c m).

(** The parameters of Groth16 for the secrets [t], [a], [b], 1 (gamma) and [d] (delta), with the
    points of the roots of unity of order [n]. *)
Record groth16 (t a b d : K) (n : nat) (w : K) (m : matrices P) (s : state P) : Prop := Groth16 {
  g_alpha : alpha_g1 s = smul a (gen1 P);
  g_beta1 : beta_g1 s = smul b (gen1 P);
  g_beta2 : beta_g2 s = smul b (gen2 P);
  g_gamma : gamma_g2 s = gen2 P;
  g_delta1 : delta_g1 s = smul d (gen1 P);
  g_delta2 : delta_g2 s = smul d (gen2 P);
  g_len_a : length (a_query s) = num_variables m;
  g_len_b1 : length (b_g1_query s) = num_variables m;
  g_len_b2 : length (b_g2_query s) = num_variables m;
  g_len_abc : length (gamma_abc_g1 s) = num_instance_variables m;
  g_len_l : length (l_query s) = num_witness_variables m;
  g_a : forall j p, j < num_variables m -> interpolates n w p (column_a m j) ->
    nth j (a_query s) g0 = smul (poly_eval p t) (gen1 P);
  g_b1 : forall j p, j < num_variables m -> interpolates n w p (column (mat_b m) j) ->
    nth j (b_g1_query s) g0 = smul (poly_eval p t) (gen1 P);
  g_b2 : forall j p, j < num_variables m -> interpolates n w p (column (mat_b m) j) ->
    nth j (b_g2_query s) g0 = smul (poly_eval p t) (gen2 P);
  g_abc : forall j pa pb pc, j < num_instance_variables m -> interpolates n w pa (column_a m j) ->
    interpolates n w pb (column (mat_b m) j) -> interpolates n w pc (column (mat_c m) j) ->
    nth j (gamma_abc_g1 s) g0 = smul (b * poly_eval pa t + a * poly_eval pb t + poly_eval pc t) (gen1 P);
  g_l : forall j pa pb pc, j < num_witness_variables m ->
    interpolates n w pa (column_a m (num_instance_variables m + j)) ->
    interpolates n w pb (column (mat_b m) (num_instance_variables m + j)) ->
    interpolates n w pc (column (mat_c m) (num_instance_variables m + j)) ->
    nth j (l_query s) g0 = smul (finv d * (b * poly_eval pa t + a * poly_eval pb t + poly_eval pc t)) (gen1 P);
  g_h : h_query s = map (fun i => smul (finv d * (fpow t i * (fpow t n - f1))) (gen1 P)) (seq 0 n)
}.

(** The inner product of a row and an assignment, and what it is to satisfy the constraints. *)
Definition inner (r : row P) (z : list K) : K := sum (length z) (fun j => entry r j * nth j z f0).
Definition satisfies (m : matrices P) (z : list K) : Prop :=
  length z = num_variables m /\
  forall i, i < length (mat_a m) ->
    inner (nth i (mat_a m) []) z * inner (nth i (mat_b m) []) z = inner (nth i (mat_c m) []) z.

(** A proof of Groth16 for the assignment [z], the coefficients [h] and the random [r] and [u]; and
    the equation of the verifier. *)
Definition weighted {g : grp K} (z : list K) (l : list g) : g :=
  fold_right gadd g0 (map (fun x => smul (fst x) (snd x)) (combine z l)).
Definition proof_a (s : state P) (z : list K) (r : K) : G1 P :=
  gadd (gadd (alpha_g1 s) (weighted z (a_query s))) (smul r (delta_g1 s)).
Definition proof_b1 (s : state P) (z : list K) (u : K) : G1 P :=
  gadd (gadd (beta_g1 s) (weighted z (b_g1_query s))) (smul u (delta_g1 s)).
Definition proof_b2 (s : state P) (z : list K) (u : K) : G2 P :=
  gadd (gadd (beta_g2 s) (weighted z (b_g2_query s))) (smul u (delta_g2 s)).
Definition proof_c (s : state P) (ni : nat) (z h : list K) (r u : K) : G1 P :=
  gadd (gadd (gadd (gadd (weighted (skipn ni z) (l_query s)) (weighted h (h_query s)))
    (smul u (proof_a s z r))) (smul r (proof_b1 s z u))) (smul (fopp (r * u)) (delta_g1 s)).
Definition groth16_verify (s : state P) (public : list K) (pa : G1 P) (pb : G2 P) (pc : G1 P) : Prop :=
  pe P pa pb = gadd (gadd (pe P (alpha_g1 s) (beta_g2 s)) (pe P (weighted public (gamma_abc_g1 s)) (gamma_g2 s)))
    (pe P pc (delta_g2 s)).
End Spec.
Arguments sum {P} _ _. Arguments poly_eval {P} _ _. Arguments interpolates {P} _ _ _ _. Arguments root_of_order {P} _ _.
Arguments entry {P} _ _. Arguments column {P} _ _ _. Arguments column_a {P} _ _ _. Arguments num_variables {P} _.
Arguments rows_ok {P} _ _. Arguments well_formed {P} _. Arguments groth16 {P} _ _ _ _ _ _ _ _.
Arguments inner {P} _ _. Arguments satisfies {P} _ _. Arguments weighted {P g} _ _.
Arguments proof_a {P} _ _ _. Arguments proof_b1 {P} _ _ _. Arguments proof_b2 {P} _ _ _.
Arguments proof_c {P} _ _ _ _ _ _. Arguments groth16_verify {P} _ _ _ _ _.
