(** What an accumulator of powers of tau is. *)
From Coq Require Import List.
From Verif Require Import AlgBase MpModel KzModel.
Import ListNotations.

Section Spec.
Variable P : pairing.
Notation K := (sc P).

Fixpoint fpow (t : K) (n : nat) : K := match n with 0 => f1 | S n => fmul t (fpow t n) end.

(** [x], [t] times [x], [t] squared times [x] and so on, [n] points. *)
Definition geometric {g : grp K} (t : K) (x : g) (n : nat) : list g :=
  map (fun i => smul (fpow t i) x) (seq 0 n).

(** The accumulator of the secrets [t], [a] and [b] with the given lengths. *)
Record accum_of (t a b : K) (n1 n2 n3 n4 : nat) (acc : accum P) : Prop := AccumOf {
  ao_tau1 : tau_g1 acc = geometric t (gen1 P) n1;
  ao_tau2 : tau_g2 acc = geometric t (gen2 P) n2;
  ao_alpha : alpha_tau_g1 acc = geometric t (smul a (gen1 P)) n3;
  ao_beta : beta_tau_g1 acc = geometric t (smul b (gen1 P)) n4;
  ao_beta2 : kbeta_g2 acc = smul b (gen2 P)
}.
End Spec.
Arguments fpow {P}. Arguments geometric {P g}. Arguments accum_of {P}.

Section Decoded.
Variable P : pairing.
(** No point of a ratio proof is the point at infinity: so is every proof that was decoded,
    kzg.rs L344-412 with [NonZero], util.rs L178-236. *)
Definition nonzero_ratio (pf : ratio_proof P) : Prop := ratio0 pf <> g0 /\ ratio1 pf <> g0 /\ matching pf <> g0.
Definition nonzero_proof (pf : kproof P) : Prop :=
  nonzero_ratio (ptau pf) /\ nonzero_ratio (palpha pf) /\ nonzero_ratio (pbeta pf).

(** The factor that a ratio proof shows, in the first group. *)
Definition ratio_is (pf : ratio_proof P) (r : sc P) : Prop := ratio1 pf = smul r (ratio0 pf).
End Decoded.
Arguments nonzero_ratio {P}. Arguments nonzero_proof {P}. Arguments ratio_is {P}.
