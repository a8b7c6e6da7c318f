(** Specification of the linear algebra of Poseidon, by entries and sums. *)
From Coq Require Import List Arith Bool.
From Verif Require Import AlgBase.
Import ListNotations.

Section Spec.
Variable K : fld.

(** The sum of [f 0], ..., [f (n - 1)]. *)
Fixpoint sum (n : nat) (f : nat -> K) : K :=
  match n with 0 => f0 | S n => fadd (sum n f) (f n) end.

(** A matrix with [n] rows of [n] elements; its entries. *)
Definition sq (n : nat) (m : list (list K)) : Prop := length m = n /\ Forall (fun r => length r = n) m.
Definition shape (a b : nat) (m : list (list K)) : Prop := length m = a /\ Forall (fun r => length r = b) m.
Definition ent (m : list (list K)) (i j : nat) : K := nth j (nth i m []) f0.

Definition delta (i j : nat) : K := if Nat.eqb i j then f1 else f0.

(** [a] times [b], with [n] the inner dimension, is the identity on the first [r]. *)
Definition prod_ent (n : nat) (a b : list (list K)) (i j : nat) : K :=
  sum n (fun k => fmul (ent a i k) (ent b k j)).
Definition mul_is_id (n : nat) (a b : list (list K)) : Prop :=
  forall i j, i < n -> j < n -> prod_ent n a b i j = delta i j.

(** [m] times the column [x]. *)
Definition app (n : nat) (m : list (list K)) (x : nat -> K) (i : nat) : K :=
  sum n (fun k => fmul (ent m i k) (x k)).

(** [m] sends a vector that is not zero to zero. *)
Definition singular (n : nat) (m : list (list K)) : Prop :=
  exists x, (exists i, i < n /\ x i <> f0) /\ forall i, i < n -> app n m x i = f0.

Definition symmetric (n : nat) (m : list (list K)) : Prop :=
  forall i j, i < n -> j < n -> ent m i j = ent m j i.

(** A row times [m]. *)
Definition rowmul (n : nat) (m : list (list K)) (x : nat -> K) (j : nat) : K :=
  sum n (fun k => fmul (x k) (ent m k j)).

(** A function on the first element only, and linear layers alternating with such functions. *)
Definition on_first (s : K -> K) (x : nat -> K) : nat -> K :=
  fun j => match j with 0 => s (x 0) | S _ => x j end.
Fixpoint alternate (n : nat) (ss : list (K -> K)) (ms : list (list (list K))) (x : nat -> K) : nat -> K :=
  match ss, ms with
  | s :: ss, m :: ms => alternate n ss ms (rowmul n m (on_first s x))
  | _, _ => x
  end.

(** Evaluation with keys added after the S-boxes and, in the partial rounds, one key each.
    The first [half] full rounds end with [pre], the partial rounds use [sps]. *)
Section Opt.
Variable sbox : K -> K.
Variables width half partial : nat.
Variable ks : list K.
Definition key (r j : nat) : K := nth (r * width + j) ks f0.
Definition partial_key (i : nat) : K := nth ((half + 1) * width + i) ks f0.
Definition last_key (i j : nat) : K := nth ((half + 1) * width + partial + i * width + j) ks f0.
Definition sboxes_then (k : nat -> K) (x : nat -> K) : nat -> K := fun j => fadd (sbox (x j)) (k j).
Definition opt_eval (m pre : list (list K)) (sps : list (list (list K))) (x : nat -> K) : nat -> K :=
  let y := fun j => fadd (x j) (key 0 j) in
  let y := fold_left (fun y i => rowmul width m (sboxes_then (key i) y)) (seq 1 (half - 1)) y in
  let y := rowmul width pre (sboxes_then (key half) y) in
  let y := alternate width (map (fun i e => fadd (sbox e) (partial_key i)) (seq 0 partial)) sps y in
  let y := fold_left (fun y i => rowmul width m (sboxes_then (last_key i) y)) (seq 0 (half - 1)) y in
  rowmul width m (fun j => sbox (y j)).
End Opt.
End Spec.
Arguments sum {K}. Arguments sq {K}. Arguments shape {K}. Arguments ent {K}. Arguments delta {K}.
Arguments prod_ent {K}. Arguments mul_is_id {K}. Arguments app {K}. Arguments singular {K}. Arguments symmetric {K}.
Arguments rowmul {K}. Arguments on_first {K}. Arguments alternate {K}. Arguments opt_eval {K}.
