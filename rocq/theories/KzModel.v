(** The first phase of the trusted setup: powers of tau.
    manta-trusted-setup/src/groth16/kzg.rs.

    External: the three hashes into G2, one for each domain tag ([hash]). What is drawn
    from a random number generator is an argument. Accumulators and proofs are values in
    memory; their encoding is not modelled. *)
From Coq Require Import List Arith Bool.
From Verif Require Import AlgBase MpModel.
Import ListNotations.

(** kzg.rs L93-102 [KnowledgeError] and L106-136 [VerificationError], and a panic. *)
Inductive kerr :=
| GeneratorG1 | GeneratorG2 | TauKnowledge | AlphaKnowledge | BetaKnowledge
| TauMultiplication | AlphaMultiplication | BetaMultiplication
| TauG1Powers | TauG2Powers | AlphaG1Powers | BetaG1Powers.
Inductive kres (A : Type) := KOk (a : A) | KErr (e : kerr) | KPanic.
Arguments KOk {A}. Arguments KErr {A}. Arguments KPanic {A}.

Definition kbind {A B} (r : kres A) (f : A -> kres B) : kres B :=
  match r with KOk a => f a | KErr e => KErr e | KPanic => KPanic end.
Notation "'dok' x <- r ; k" := (kbind r (fun x => k)) (at level 200, x name, r at level 100, k at level 200).

(** Indexing a vector panics beyond its end. *)
Definition idx {A} (l : list A) (i : nat) : kres A :=
  match nth_error l i with Some x => KOk x | None => KPanic end.

(** [ok_or(e)?] and the checks that return an error. *)
Definition require (b : bool) (e : kerr) : kres unit := if b then KOk tt else KErr e.

(** The three domain tags, kzg.rs L73-80. *)
Inductive tag := TTau | TAlpha | TBeta.

Section Kz.
Variable P : pairing.
Notation K := (sc P).
Notation A1 := (G1 P).
Notation A2 := (G2 P).

(** kzg.rs L416-435 [Accumulator]. *)
Record accum := Acc {
  tau_g1 : list A1; tau_g2 : list A2; alpha_tau_g1 : list A1; beta_tau_g1 : list A1; kbeta_g2 : A2
}.

(** kzg.rs L141-153 [Contribution]. *)
Record contribution := Contrib { ctau : K; calpha : K; cbeta : K }.

(** kzg.rs L206-220 [Proof]. *)
Record kproof := KP { ptau : ratio_proof P; palpha : ratio_proof P; pbeta : ratio_proof P }.

(** kzg.rs L692-706 [Default], for [G1_POWERS] = [n1] and [G2_POWERS] = [n2]. *)
Definition acc_default (n1 n2 : nat) : accum :=
  Acc (repeat (gen1 P) n1) (repeat (gen2 P) n2) (repeat (gen1 P) n2) (repeat (gen1 P) n2) (gen2 P).

(** kzg.rs L445-448: one, tau, tau squared and so on. *)
Fixpoint powers (x t : K) (n : nat) : list K :=
  match n with 0 => [] | S n => x :: powers (fmul x t) t n end.

(** The first points multiplied by the scalars, pairwise; the others are kept. *)
Fixpoint mul_first {g : grp K} (ps : list g) (rs : list K) : list g :=
  match ps, rs with
  | x :: ps, r :: rs => smul r x :: mul_first ps rs
  | ps, _ => ps
  end.

(** kzg.rs L444-468 [update]. Zipping stops at the shortest list; [split_off] panics beyond
    the end. *)
Definition update (n1 n2 : nat) (a : accum) (c : contribution) : option accum :=
  if Nat.ltb n1 n2 then None else
  let ts := powers f1 (ctau c) n1 in
  let first := firstn n2 ts in
  let remaining := skipn n2 ts in
  let k := Nat.min (length (tau_g1 a)) (Nat.min (length (tau_g2 a))
             (Nat.min (length (alpha_tau_g1 a)) (length (beta_tau_g1 a)))) in
  let zip := firstn k first in
  let t1 := mul_first (tau_g1 a) zip in
  Some (Acc (firstn n2 t1 ++ mul_first (skipn n2 t1) remaining)
            (mul_first (tau_g2 a) zip)
            (mul_first (alpha_tau_g1 a) (map (fun t => fmul t (calpha c)) zip))
            (mul_first (beta_tau_g1 a) (map (fun t => fmul t (cbeta c)) zip))
            (smul (cbeta c) (kbeta_g2 a))).

(** util.rs L339-347 [power_pairs]: all but the last against all but the first. *)
Definition power_pairs {g : grp K} (rho : nat -> K) (ps : list g) : kres (g * g) :=
  match ps with
  | [] => KPanic
  | _ :: rest =>
      match merge_pairs rho (removelast ps) rest with Some x => KOk x | None => KPanic end
  end.

Section Verify.
Context {CH : Type}.
Variable hash : tag -> CH -> A1 -> A1 -> A2.

(** kzg.rs L161-170 [Contribution::proof]; one sampled point for each of the three. *)
Definition proof (c : contribution) (ch : CH) (gt ga gb : A1) : option kproof :=
  match prove (hash TTau) ch (ctau c) gt with
  | None => None
  | Some t =>
      match prove (hash TAlpha) ch (calpha c) ga with
      | None => None
      | Some a =>
          match prove (hash TBeta) ch (cbeta c) gb with
          | None => None
          | Some b => Some (KP t a b)
          end
      end
  end.

(** kzg.rs L229-253 [Proof::verify]: the ratio in G2 of each of the three proofs. *)
Definition proof_part (t : tag) (e : kerr) (pf : ratio_proof P) (ch : CH) : kres (A2 * A2) :=
  match ratio_verify (hash t) pf ch with Some (_, r) => KOk r | None => KErr e end.

Definition proof_verify (pf : kproof) (ch : CH) : kres ((A2 * A2) * (A2 * A2) * (A2 * A2)) :=
  dok t <- proof_part TTau TauKnowledge (ptau pf) ch;
  dok a <- proof_part TAlpha AlphaKnowledge (palpha pf) ch;
  dok b <- proof_part TBeta BetaKnowledge (pbeta pf) ch;
  KOk (t, a, b).

(** kzg.rs L472-523 [verify_transform]; the four random combinations are those of
    [tau_g2], [tau_g1], [alpha_tau_g1] and [beta_tau_g1], in the order of the code. *)
Definition kverify (last next : accum) (ch : CH) (pf : kproof) (r1 r2 r3 r4 : nat -> K) : kres accum :=
  dok n0 <- idx (tau_g1 next) 0;
  dok _ <- require (geqb n0 (gen1 P)) GeneratorG1;
  dok m0 <- idx (tau_g2 next) 0;
  dok _ <- require (geqb m0 (gen2 P)) GeneratorG2;
  dok cert <- proof_verify pf ch;
  let '(tau, alpha, beta) := cert in
  dok l1 <- idx (tau_g1 last) 1;
  dok n1 <- idx (tau_g1 next) 1;
  dok _ <- require (has_same (l1, fst tau) (n1, snd tau)) TauMultiplication;
  dok la <- idx (alpha_tau_g1 last) 0;
  dok na <- idx (alpha_tau_g1 next) 0;
  dok _ <- require (has_same (la, fst alpha) (na, snd alpha)) AlphaMultiplication;
  dok lb <- idx (beta_tau_g1 last) 0;
  dok nb <- idx (beta_tau_g1 next) 0;
  dok _ <- require (has_same (lb, fst beta) (nb, snd beta)) BetaMultiplication;
  dok _ <- require (has_same (lb, kbeta_g2 next) (nb, kbeta_g2 last)) BetaMultiplication;
  dok x <- power_pairs r1 (tau_g2 next);
  dok _ <- require (has_same (n0, snd x) (n1, fst x)) TauG1Powers;
  dok x <- power_pairs r2 (tau_g1 next);
  dok m1 <- idx (tau_g2 next) 1;
  dok _ <- require (has_same (fst x, m1) (snd x, m0)) TauG2Powers;
  dok x <- power_pairs r3 (alpha_tau_g1 next);
  dok _ <- require (has_same (fst x, m1) (snd x, m0)) AlphaG1Powers;
  dok x <- power_pairs r4 (beta_tau_g1 next);
  dok _ <- require (has_same (fst x, m1) (snd x, m0)) BetaG1Powers;
  KOk next.
End Verify.
End Kz.

Arguments Acc {P}. Arguments tau_g1 {P}. Arguments tau_g2 {P}. Arguments alpha_tau_g1 {P}.
Arguments beta_tau_g1 {P}. Arguments kbeta_g2 {P}. Arguments Contrib {P}. Arguments ctau {P}.
Arguments calpha {P}. Arguments cbeta {P}. Arguments KP {P}. Arguments ptau {P}. Arguments palpha {P}.
Arguments pbeta {P}. Arguments powers {P}. Arguments mul_first {P g}. Arguments update {P}.
Arguments power_pairs {P g}. Arguments proof {P CH}. Arguments proof_part {P CH}.
Arguments proof_verify {P CH}. Arguments kverify {P CH}.
