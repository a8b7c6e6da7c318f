(** A concrete hash (free term algebra) used for examples and counterexamples. *)
From Coq Require Import List Arith Bool.
From Verif Require Import MtModel MtSpec.
Import ListNotations.

Inductive dig := D0 | DJ (a b : dig) | DL (a b : nat).

Fixpoint dig_eqb (x y : dig) : bool :=
  match x, y with
  | D0, D0 => true
  | DJ a b, DJ c d => dig_eqb a c && dig_eqb b d
  | DL a b, DL c d => Nat.eqb a c && Nat.eqb b d
  | _, _ => false
  end.

Lemma dig_eqb_spec a b : dig_eqb a b = true <-> a = b.
Proof.
  split.
  - revert b. induction a as [|a1 IH1 a2 IH2|x y]; destruct b as [|c d|c d]; simpl; intro E; try discriminate; auto.
    + apply andb_true_iff in E; destruct E as [E1 E2]. f_equal; auto.
    + apply andb_true_iff in E; destruct E as [E1 E2]. apply Nat.eqb_eq in E1, E2; congruence.
  - intros <-. induction a; simpl; auto.
    + rewrite IHa1, IHa2; auto.
    + rewrite !Nat.eqb_refl; auto.
Qed.

Lemma DJ_inj a b c d : DJ a b = DJ c d -> a = c /\ b = d.
Proof. intro E; injection E; auto. Qed.
Lemma DL_inj a b c d : DL a b = DL c d -> a = c /\ b = d.
Proof. intro E; injection E; auto. Qed.
Lemma DJ_nd a b : DJ a b <> D0.
Proof. discriminate. Qed.
Lemma DL_nd a b : DL a b <> D0.
Proof. discriminate. Qed.
