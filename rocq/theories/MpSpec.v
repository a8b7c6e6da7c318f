(** What a contribution to the second phase may do, said without the checks of the code. *)
From Coq Require Import List.
From Verif Require Import AlgBase MpModel.
Import ListNotations.

Section Spec.
Variable P : pairing.

(** [next] is [prev] with the secret multiplied by [r]: delta is [r] times as large in both
    groups, every point of the two queries that are divided by delta is the [r]-th part of
    what it was, and nothing else differs. *)
Record scaled (r : sc P) (prev next : state P) : Prop := Scaled {
  sc_d1 : delta_g1 next = smul r (delta_g1 prev);
  sc_d2 : delta_g2 next = smul r (delta_g2 prev);
  sc_h : map (fun x => smul r x) (h_query next) = h_query prev;
  sc_l : map (fun x => smul r x) (l_query next) = l_query prev;
  sc_alpha : alpha_g1 next = alpha_g1 prev;
  sc_beta1 : beta_g1 next = beta_g1 prev;
  sc_beta2 : beta_g2 next = beta_g2 prev;
  sc_gamma : gamma_g2 next = gamma_g2 prev;
  sc_abc : gamma_abc_g1 next = gamma_abc_g1 prev;
  sc_a : a_query next = a_query prev;
  sc_b1 : b_g1_query next = b_g1_query prev;
  sc_b2 : b_g2_query next = b_g2_query prev
}.

(** A usable key: delta is not the point at infinity, and one of the points divided by it
    is not either. *)
Definition live (s : state P) : Prop :=
  delta_g2 s <> g0 /\ exists x, In x (h_query s ++ l_query s) /\ x <> g0.

(** [rho] with the scalar of one index replaced. *)
Definition upd (rho : nat -> sc P) (i : nat) (v : sc P) : nat -> sc P :=
  fun j => if Nat.eqb j i then v else rho j.
End Spec.
Arguments scaled {P}. Arguments live {P}. Arguments upd {P}.
