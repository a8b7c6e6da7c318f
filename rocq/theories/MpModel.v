(** The second phase of the trusted setup: contributions to a Groth16 proving key.
    manta-trusted-setup/src/groth16/mpc.rs, manta-trusted-setup/src/util.rs,
    manta-crypto/src/arkworks/{pairing,ratio}.rs.

    External: the hash into G2 ([hash]) and the challenge function ([chal]). What is
    drawn from a random number generator is an argument. *)
From Coq Require Import List Arith Bool.
From Verif Require Import AlgBase.
Import ListNotations.

(** mpc.rs L214-244 [Error] (without the variants of [initialize]), and a panic. The
    number is the line of the message of [InvariantViolated]. *)
Inductive merr :=
| InvalidRatioProof | InconsistentDeltaChange | InconsistentLChange | InconsistentHChange
| InvariantViolated (line : nat).
Inductive mres (A : Type) := MOk (a : A) | MErr (e : merr) | MPanic.
Arguments MOk {A}. Arguments MErr {A}. Arguments MPanic {A}.

Section Mp.
Variable P : pairing.
Notation K := (sc P).
Notation A1 := (G1 P).
Notation A2 := (G2 P).

(** * pairing.rs *)

(** pairing.rs L71-74 [eval]: one pairing. *)
Definition eval (pr : A1 * A2) : GT P := pe P (fst pr) (snd pr).

(** pairing.rs L77-80 [has_same]. *)
Definition has_same (l r : A1 * A2) : bool := geqb (eval l) (eval r).

(** pairing.rs L85-96 [same]. *)
Definition same (l r : A1 * A2) : option ((A1 * A2) * (A1 * A2)) :=
  if has_same l r then Some (l, r) else None.

(** pairing.rs L100-108 [same_ratio]. *)
Definition same_ratio (l : A1 * A1) (r : A2 * A2) : bool :=
  has_same (fst l, snd r) (snd l, fst r).

(** * ratio.rs *)

(** ratio.rs L49-63 [RatioProof]. *)
Record ratio_proof := RP { ratio0 : A1; ratio1 : A1; matching : A2 }.

(** ratio.rs L51: [#[derivative(Default)]], and [GroupAffine::default] is the point at
    infinity. *)
Definition default_proof : ratio_proof := RP g0 g0 g0.

Section Hash.
Context {CH : Type}.
Variable hash : CH -> A1 -> A1 -> A2.

(** ratio.rs L71-103 [prove], L107-112 [challenge_point]; [g] is the sampled point. *)
Definition prove (c : CH) (scalar : K) (g : A1) : option ratio_proof :=
  if geqb g g0 then None else
  let sg := smul scalar g in
  if geqb sg g0 then None else
  let q := hash c g sg in
  if geqb q g0 then None else
  let sq := smul scalar q in
  if geqb sq g0 then None else
  Some (RP g sg sq).

(** ratio.rs L117-128 [verify]: the two ratios, of G1 and of G2. *)
Definition ratio_verify (pf : ratio_proof) (c : CH) : option ((A1 * A1) * (A2 * A2)) :=
  let q := hash c (ratio0 pf) (ratio1 pf) in
  match same (ratio0 pf, matching pf) (ratio1 pf, q) with
  | Some ((r0, m), (r1, q)) => Some ((r0, r1), (m, q))
  | None => None
  end.
End Hash.

(** * util.rs *)

(** util.rs L314-332 [merge_pairs_affine] and L287-308 [merge_pairs_projective]: a random
    linear combination of both lists; [rho i] is the scalar drawn for index [i]. The sum
    is taken from the left (the parallel version adds in another order). *)
Definition merge_pairs {g : grp K} (rho : nat -> K) (l r : list g) : option (g * g) :=
  if Nat.eqb (length l) (length r) then
    Some (fold_left (fun acc x => (gadd (fst acc) (fst x), gadd (snd acc) (snd x)))
           (map (fun x => (smul (fst x) (fst (snd x)), smul (fst x) (snd (snd x))))
             (combine (map rho (seq 0 (length l))) (combine l r))) (g0, g0))
  else None.

(** util.rs L440-445 [batch_mul_fixed_scalar] with L241-246 [scalar_mul]. *)
Definition batch_mul {g : grp K} (ps : list g) (r : K) : list g := map (fun x => smul r x) ps.

(** * mpc.rs *)

(** The fields of ark-groth16's [ProvingKey] and [VerifyingKey], as mpc.rs L415-430
    builds them; mpc.rs L60-72 [State]. *)
Record state := St {
  alpha_g1 : A1; beta_g2 : A2; gamma_g2 : A2; delta_g2 : A2; gamma_abc_g1 : list A1;
  beta_g1 : A1; delta_g1 : A1; a_query : list A1; b_g1_query : list A1; b_g2_query : list A2;
  h_query : list A1; l_query : list A1
}.

Definition set_changed (s : state) (d1 : A1) (d2 : A2) (h l : list A1) : state :=
  St (alpha_g1 s) (beta_g2 s) (gamma_g2 s) d2 (gamma_abc_g1 s) (beta_g1 s) d1 (a_query s)
     (b_g1_query s) (b_g2_query s) h l.

(** Equality of vectors of points. *)
Fixpoint pts_eqb {g : grp K} (l r : list g) : bool :=
  match l, r with
  | [], [] => true
  | x :: l, y :: r => geqb x y && pts_eqb l r
  | _, _ => false
  end.

(** mpc.rs L316-351 [check_invariants]. *)
Definition check_invariants (prev next : state) : option merr :=
  if negb (Nat.eqb (length (h_query prev)) (length (h_query next))) then Some (InvariantViolated 321) else
  if negb (Nat.eqb (length (l_query prev)) (length (l_query next))) then Some (InvariantViolated 324) else
  if negb (pts_eqb (a_query prev) (a_query next)) then Some (InvariantViolated 327) else
  if negb (pts_eqb (b_g1_query prev) (b_g1_query next)) then Some (InvariantViolated 330) else
  if negb (pts_eqb (b_g2_query prev) (b_g2_query next)) then Some (InvariantViolated 333) else
  if negb (geqb (alpha_g1 prev) (alpha_g1 next)) then Some (InvariantViolated 336) else
  if negb (geqb (beta_g1 prev) (beta_g1 next)) then Some (InvariantViolated 339) else
  if negb (geqb (beta_g2 prev) (beta_g2 next)) then Some (InvariantViolated 342) else
  if negb (geqb (gamma_g2 prev) (gamma_g2 next)) then Some (InvariantViolated 345) else
  if negb (pts_eqb (gamma_abc_g1 prev) (gamma_abc_g1 next)) then Some (InvariantViolated 348) else
  None.

Section Run.
Context {CH : Type}.
Variable hash : CH -> A1 -> A1 -> A2.
Variable chal : CH -> state -> state -> ratio_proof -> CH.

(** mpc.rs L451-468 [contribute]; [delta] and [g] are sampled. The state is modified in
    place, also when no proof comes out at the end. *)
Definition contribute (c : CH) (s : state) (delta : K) (g : A1) : state * option ratio_proof :=
  match finverse delta with
  | None => (s, None)
  | Some di =>
      (set_changed s (smul delta (delta_g1 s)) (smul delta (delta_g2 s))
         (batch_mul (h_query s) di) (batch_mul (l_query s) di),
       prove hash c delta g)
  end.

(** The checks mpc.rs L490-507 and L543-560 have in common: the change of delta in G1,
    of [h_query] and of [l_query] between [prev] and [next]. *)
Definition check_change (prev next : state) (rh rl : nat -> K) : mres unit :=
  if negb (same_ratio (delta_g1 prev, delta_g1 next) (delta_g2 prev, delta_g2 next))
  then MErr InconsistentDeltaChange else
  match merge_pairs rh (h_query next) (h_query prev) with
  | None => MPanic
  | Some hs =>
      if negb (same_ratio hs (delta_g2 prev, delta_g2 next)) then MErr InconsistentHChange else
      match merge_pairs rl (l_query next) (l_query prev) with
      | None => MPanic
      | Some ls =>
          if negb (same_ratio ls (delta_g2 prev, delta_g2 next)) then MErr InconsistentLChange
          else MOk tt
      end
  end.

(** mpc.rs L483-489 and L530-539: the ratio proof against the change of delta in G2. *)
Definition check_proof (c : CH) (prev next : state) (pf : ratio_proof) : mres unit :=
  match ratio_verify hash pf c with
  | None => MErr InvalidRatioProof
  | Some ((r0, r1), _) =>
      if negb (same_ratio (r0, r1) (delta_g2 prev, delta_g2 next)) then MErr InconsistentDeltaChange
      else MOk tt
  end.

(** mpc.rs L472-509 [verify_transform]; [rh] and [rl] are drawn by [merge_pairs_affine]. *)
Definition verify_transform (c : CH) (prev next : state) (pf : ratio_proof) (rh rl : nat -> K)
  : mres (CH * state) :=
  match check_invariants prev next with
  | Some e => MErr e
  | None =>
      let c' := chal c prev next pf in
      match check_proof c prev next pf with
      | MErr e => MErr e | MPanic => MPanic
      | MOk _ =>
          match check_change prev next rh rl with
          | MErr e => MErr e | MPanic => MPanic
          | MOk _ => MOk (c', next)
          end
      end
  end.

(** mpc.rs L528-541: the loop of [verify_transform_all]. *)
Fixpoint proofs_all (c : CH) (s : state) (l : list (state * ratio_proof)) : mres state :=
  match l with
  | [] => MOk s
  | (next, pf) :: l =>
      let c' := chal c s next pf in
      match check_proof c s next pf with
      | MErr e => MErr e | MPanic => MPanic
      | MOk _ => proofs_all c' next l
      end
  end.

(** mpc.rs L518-562 [verify_transform_all]. *)
Definition verify_transform_all (c : CH) (s : state) (l : list (state * ratio_proof)) (rh rl : nat -> K)
  : mres unit :=
  match proofs_all c s l with
  | MErr e => MErr e | MPanic => MPanic
  | MOk last =>
      match check_invariants s last with
      | Some e => MErr e
      | None => check_change s last rh rl
      end
  end.

(** mpc.rs (manta-trusted-setup/src) L141-160 [Verify::verify_transform_all], the way the
    coordinator (groth16/ceremony/coordinator.rs L286-293) and the verifier
    (bin/groth16_phase2_verifier.rs L115-141) go through the contributions: one after the
    other, with fresh randomness for each. *)
Fixpoint verify_stepwise (c : CH) (s : state) (l : list ((state * ratio_proof) * ((nat -> K) * (nat -> K))))
  : mres (CH * state) :=
  match l with
  | [] => MOk (c, s)
  | ((next, pf), (rh, rl)) :: l =>
      match verify_transform c s next pf rh rl with
      | MErr e => MErr e | MPanic => MPanic
      | MOk (c', s') => verify_stepwise c' s' l
      end
  end.
End Run.
End Mp.

Arguments RP {P}. Arguments ratio0 {P}. Arguments ratio1 {P}. Arguments matching {P}.
Arguments St {P}. Arguments alpha_g1 {P}. Arguments beta_g2 {P}. Arguments gamma_g2 {P}.
Arguments delta_g2 {P}. Arguments gamma_abc_g1 {P}. Arguments beta_g1 {P}. Arguments delta_g1 {P}.
Arguments a_query {P}. Arguments b_g1_query {P}. Arguments b_g2_query {P}. Arguments h_query {P}.
Arguments l_query {P}. Arguments set_changed {P}. Arguments same_ratio {P}. Arguments same {P}.
Arguments has_same {P}. Arguments merge_pairs {P g}. Arguments batch_mul {P g}. Arguments pts_eqb {P g}.
Arguments check_invariants {P}. Arguments check_change {P}. Arguments check_proof {P CH}.
Arguments prove {P CH}. Arguments ratio_verify {P CH}. Arguments contribute {P CH}.
Arguments verify_transform {P CH}. Arguments proofs_all {P CH}. Arguments verify_transform_all {P CH}.
Arguments verify_stepwise {P CH}. Arguments eval {P}.
