(** Properties C64 and C65: powers of tau. *)
From Coq Require Import List Arith NArith Bool Lia Field_theory Ring.
From Verif Require Import AlgBase MpModel MpSpec MpLemmas MpProps KzModel KzSpec KzLemmas.
Import ListNotations.

Section Props.
Variable P : pairing.
Context {CH : Type}.
Variable hash : tag -> CH -> G1 P -> G1 P -> G2 P.
Notation K := (sc P).
Notation verify := (kverify hash).
Add Ring Kr6 : (F_R (fth (sc P))).
Implicit Types (last next : accum P) (c : contribution P) (pf : kproof P).

(** * C64: an accumulator consists of the powers of its secrets *)

Lemma geo_one {g : grp K} (x : g) n : geometric f1 x n = repeat x n.
Proof.
  induction n as [|n IH]; [reflexivity|]. rewrite geo_S, smul_1, IH. reflexivity.
Qed.

(** The first accumulator has the secrets one. *)
Theorem c64_default n1 n2 : accum_of f1 f1 f1 n1 n2 n2 n2 (acc_default P n1 n2).
Proof. constructor; cbn; rewrite ?smul_1, ?geo_one; auto. Qed.

(** An update multiplies the three secrets. *)
Theorem c64_update t a b n1 n2 (acc : accum P) c : n2 <= n1 -> accum_of t a b n1 n2 n2 n2 acc ->
  exists acc', update n1 n2 acc c = Some acc' /\
    accum_of (ctau c * t)%A (calpha c * a)%A (cbeta c * b)%A n1 n2 n2 n2 acc'.
Proof.
  intros L [T1 T2 A B B2]. unfold update. rewrite (proj2 (Nat.ltb_ge _ _) L). eexists. split; [reflexivity|].
  assert (Nat.min (length (tau_g1 acc)) (Nat.min (length (tau_g2 acc))
    (Nat.min (length (alpha_tau_g1 acc)) (length (beta_tau_g1 acc)))) = n2) as ->.
  { rewrite T1, T2, A, B, !geo_len. lia. }
  rewrite firstn_firstn, Nat.min_id.
  assert (forall (g : grp K) (x : g) y, mul_first (geometric t x n2) (map (fun s => fmul s y) (firstn n2 (powers f1 (ctau c) n1)))
    = geometric (ctau c * t)%A (smul y x) n2) as M.
  { intros g x y. rewrite powers_firstn, mul_geo. replace (Nat.min n2 (Nat.min n2 n1)) with n2 by lia.
    replace (Nat.min n2 n1) with n2 by lia. rewrite skipn_all2 by (rewrite geo_len; lia). rewrite app_nil_r.
    f_equal. f_equal. ring. }
  constructor; cbn [tau_g1 tau_g2 alpha_tau_g1 beta_tau_g1 kbeta_g2].
  - rewrite mul_split by (rewrite powers_len; lia). rewrite T1.
    rewrite <- (map_fmul1 P (powers f1 (ctau c) n1)), mul_geo, Nat.min_id.
    rewrite skipn_all2 by (rewrite geo_len; lia). rewrite app_nil_r. f_equal.
    rewrite <- (smul_1 _ _ (gen1 P)) at 2. f_equal. ring.
  - rewrite T2. rewrite <- (map_fmul1 P (firstn n2 _)), M, smul_1. reflexivity.
  - rewrite A, M, smul_smul. reflexivity.
  - rewrite B, M, smul_smul. reflexivity.
  - rewrite B2, smul_smul. reflexivity.
Qed.

(** The verifier was lucky for the contributor: at one index of one of the four lists of
    powers, every other draw is rejected, whatever is drawn for the other lists. *)
Definition klucky last next ch pf (r1 r2 r3 r4 : nat -> K) : Prop :=
  (exists i, i < pred (length (tau_g2 next)) /\ forall v s2 s3 s4, v <> r1 i ->
     forall x, verify last next ch pf (upd r1 i v) s2 s3 s4 <> KOk x) \/
  (exists i, i < pred (length (tau_g1 next)) /\ forall v s1 s3 s4, v <> r2 i ->
     forall x, verify last next ch pf s1 (upd r2 i v) s3 s4 <> KOk x) \/
  (exists i, i < pred (length (alpha_tau_g1 next)) /\ forall v s1 s2 s4, v <> r3 i ->
     forall x, verify last next ch pf s1 s2 (upd r3 i v) s4 <> KOk x) \/
  (exists i, i < pred (length (beta_tau_g1 next)) /\ forall v s1 s2 s3, v <> r4 i ->
     forall x, verify last next ch pf s1 s2 s3 (upd r4 i v) <> KOk x).

Lemma lists_dec {g : grp K} (a b : list g) : {a = b} + {a <> b}.
Proof. apply list_eq_dec, geq_dec. Qed.

(** The test on a list in G1, when the second power in G2 is [t] times the generator. *)
Lemma test_g1 (t : K) (x y : G1 P) : pe P x (smul t (gen2 P)) = pe P y (gen2 P) <-> y = smul t x.
Proof.
  rewrite pe_smul_r, <- pe_smul_l. split; intros E; [|now rewrite E].
  symmetry. eapply pe_inj_l; eauto. apply gen2_nz.
Qed.

Lemma test_g2 (t : K) (x y : G2 P) : pe P (gen1 P) y = pe P (smul t (gen1 P)) x <-> y = smul t x.
Proof.
  rewrite pe_smul_l, <- pe_smul_r. split; intros E; [|now rewrite E].
  eapply pe_inj_r; eauto. apply gen1_nz.
Qed.

Lemma core t a b t0 a0 b0 k1 k2 k3 k4 last next ch pf r1 r2 r3 r4 l0 l1 la lb lt lar lbr n1 na nb nt nar nbr m1 mt :
  accum_of t0 a0 b0 k1 k2 k3 k4 last -> b0 <> f0 ->
  checked P hash last next ch pf r1 r2 r3 r4 l0 l1 la lb lt lar lbr n1 na nb nt nar nbr m1 mt ->
  n1 = smul t (gen1 P) -> na = smul a (gen1 P) -> nb = smul b (gen1 P) ->
  accum_of t a b (length (tau_g1 next)) (length (tau_g2 next)) (length (alpha_tau_g1 next))
    (length (beta_tau_g1 next)) next \/ klucky last next ch pf r1 r2 r3 r4.
Proof.
  intros AL B0 CK -> -> ->. pose proof CK as [L1 LA LB N1 N2 NA NB PT PA PB T A B B2 C1 C2 C3 C4].
  rewrite N1, N2, NA, NB in *.
  assert (forall s1 s2 s3 s4 x, verify last next ch pf s1 s2 s3 s4 = KOk x ->
     lin s1 0 (m1 :: mt) = smul t (lin s1 0 (removelast (gen2 P :: m1 :: mt))) /\
     pe P (lin s2 0 (removelast (gen1 P :: smul t (gen1 P) :: nt))) m1 = pe P (lin s2 0 (smul t (gen1 P) :: nt)) (gen2 P) /\
     pe P (lin s3 0 (removelast (smul a (gen1 P) :: nar))) m1 = pe P (lin s3 0 nar) (gen2 P) /\
     pe P (lin s4 0 (removelast (smul b (gen1 P) :: nbr))) m1 = pe P (lin s4 0 nbr) (gen2 P)) as INV.
  { intros s1 s2 s3 s4 x V. apply kverify_inv in V as (_ & l0' & l1' & la' & lb' & lt' & lar' & lbr' & n1' & na' & nb' & nt' & nar' & nbr' & m1' & mt' & K0).
    destruct K0 as [_ _ _ N1' N2' NA' NB' _ _ _ _ _ _ _ D1 D2 D3 D4].
    rewrite N1 in N1'. rewrite N2 in N2'. rewrite NA in NA'. rewrite NB in NB'.
    injection N1' as E1 E2. injection N2' as E3 E4. injection NA' as E5 E6. injection NB' as E7 E8.
    rewrite <- ?E1, <- ?E2, <- ?E3, <- ?E4, <- ?E5, <- ?E6, <- ?E7, <- ?E8 in *.
    apply test_g2 in D1. auto. }
  apply test_g2 in C1.
  destruct (lists_dec (gen2 P :: m1 :: mt) (geometric t (gen2 P) (S (length (m1 :: mt))))) as [G2E|G2N].
  2:{ right. left. rewrite N2. apply combined_once in G2N as (i & I & X). exists i. split; [auto|].
      intros v s2 s3 s4 V x Y. apply INV in Y as (Y & _). exact (X r1 v V C1 Y). }
  assert (m1 = smul t (gen2 P)) as M1 by (cbn [length] in G2E; rewrite !geo_S in G2E; congruence). subst m1.
  apply test_g1 in C2. apply test_g1 in C3. apply test_g1 in C4.
  destruct (lists_dec (gen1 P :: smul t (gen1 P) :: nt) (geometric t (gen1 P) (S (length (smul t (gen1 P) :: nt))))) as [G1E|G1N].
  2:{ right. right. left. rewrite N1. apply combined_once in G1N as (i & I & X). exists i. split; [auto|].
      intros v s1 s3 s4 V x Y. apply INV in Y as (_ & Y & _). apply test_g1 in Y. exact (X r2 v V C2 Y). }
  destruct (lists_dec (smul a (gen1 P) :: nar) (geometric t (smul a (gen1 P)) (S (length nar)))) as [AE|AN].
  2:{ right. right. right. left. rewrite NA. apply combined_once in AN as (i & I & X). exists i. split; [auto|].
      intros v s1 s2 s4 V x Y. apply INV in Y as (_ & _ & Y & _). apply test_g1 in Y. exact (X r3 v V C3 Y). }
  destruct (lists_dec (smul b (gen1 P) :: nbr) (geometric t (smul b (gen1 P)) (S (length nbr)))) as [BE|BN].
  2:{ right. right. right. right. rewrite NB. apply combined_once in BN as (i & I & X). exists i. split; [auto|].
      intros v s1 s2 s3 V x Y. apply INV in Y as (_ & _ & _ & Y). apply test_g1 in Y. exact (X r4 v V C4 Y). }
  left. constructor; auto; try (rewrite ?N1, ?N2, ?NA, ?NB; assumption).
  assert (lb = smul b0 (gen1 P)) as LBE.
  { pose proof (ao_beta _ _ _ _ _ _ _ _ _ AL) as X. rewrite LB in X. destruct k4 as [|k4]; [discriminate|].
    rewrite geo_S in X. congruence. }
  rewrite LBE, (ao_beta2 _ _ _ _ _ _ _ _ _ AL) in B2. rewrite !pe_smul_l, !pe_smul_r in B2.
  rewrite smul_smul in B2. replace (b * b0)%A with (b0 * b)%A in B2 by ring. rewrite <- smul_smul in B2.
  apply smul_inj_r in B2; [|auto]. rewrite <- pe_smul_r in B2. eapply pe_inj_r; [|exact B2]. apply gen1_nz.
Qed.

(** What is accepted consists of powers, but for one draw out of as many as there are
    scalars. *)
Theorem c64_sound t0 a0 b0 k1 k2 k3 k4 last next ch pf r1 r2 r3 r4 x :
  accum_of t0 a0 b0 k1 k2 k3 k4 last -> b0 <> f0 ->
  verify last next ch pf r1 r2 r3 r4 = KOk x ->
  x = next /\ ((exists t a b, accum_of t a b (length (tau_g1 next)) (length (tau_g2 next))
    (length (alpha_tau_g1 next)) (length (beta_tau_g1 next)) next) \/ klucky last next ch pf r1 r2 r3 r4).
Proof.
  intros AL B0 V.
  apply kverify_inv in V as (-> & l0 & l1 & la & lb & lt & lar & lbr & n1 & na & nb & nt & nar & nbr & m1 & mt & CK).
  split; auto.
  destruct (cyc1 P (gen1 P) n1 (gen1_nz P)) as [t T]. destruct (cyc1 P (gen1 P) na (gen1_nz P)) as [a A].
  destruct (cyc1 P (gen1 P) nb (gen1_nz P)) as [b B].
  destruct (core t a b t0 a0 b0 k1 k2 k3 k4 _ _ _ _ _ _ _ _ _ _ _ _ _ _ _ _ _ _ _ _ _ _ _ AL B0 CK T A B); eauto.
Qed.

Lemma geo_cons {g : grp K} (t : K) (x : g) n : 1 <= n -> exists r, geometric t x n = x :: r.
Proof. destruct n; [lia|]. rewrite geo_S. eauto. Qed.

Lemma geo_cons2 {g : grp K} (t : K) (x : g) n : 2 <= n -> exists r, geometric t x n = x :: smul t x :: r.
Proof. destruct n as [|[|n]]; try lia. rewrite !geo_S. eauto. Qed.

(** What the code checks holds for an accumulator whose secrets are multiples of the last
    ones, with a proof of the same factors. *)
Lemma scaled_checked t a b t0 a0 b0 n1 n2 last next ch pf r1 r2 r3 r4 : 2 <= n2 -> n2 <= n1 ->
  accum_of t0 a0 b0 n1 n2 n2 n2 last -> accum_of (t * t0)%A (a * a0)%A (b * b0)%A n1 n2 n2 n2 next ->
  ratio_ok P hash TTau (ptau pf) ch -> ratio_ok P hash TAlpha (palpha pf) ch -> ratio_ok P hash TBeta (pbeta pf) ch ->
  matching (ptau pf) = smul t (hash_of P hash TTau (ptau pf) ch) ->
  matching (palpha pf) = smul a (hash_of P hash TAlpha (palpha pf) ch) ->
  matching (pbeta pf) = smul b (hash_of P hash TBeta (pbeta pf) ch) ->
  verify last next ch pf r1 r2 r3 r4 = KOk next.
Proof.
  intros N2 N1 [T1 T2 A B B2] [T1' T2' A' B' B2'] R1 R2 R3 M1 M2 M3.
  destruct (geo_cons2 t0 (gen1 P) n1) as [x1 X1]; [lia|].
  destruct (geo_cons t0 (smul a0 (gen1 P)) n2) as [x3 X3]; [lia|].
  destruct (geo_cons t0 (smul b0 (gen1 P)) n2) as [x4 X4]; [lia|].
  destruct (geo_cons2 (t * t0)%A (gen1 P) n1) as [y1 Y1]; [lia|].
  destruct (geo_cons2 (t * t0)%A (gen2 P) n2) as [y2 Y2]; [lia|].
  destruct (geo_cons (t * t0)%A (smul (a * a0)%A (gen1 P)) n2) as [y3 Y3]; [lia|].
  destruct (geo_cons (t * t0)%A (smul (b * b0)%A (gen1 P)) n2) as [y4 Y4]; [lia|].
  rewrite X1 in T1. rewrite X3 in A. rewrite X4 in B.
  assert (forall (g : grp K) x (z : g) zs n rho, geometric x z n = z :: zs -> lin rho 0 zs = smul x (lin rho 0 (removelast (z :: zs)))) as GL.
  { intros g x z zs n rho E. apply combined_geo.
    assert (n = S (length zs)) as <- by (rewrite <- (geo_len P g x z n), E; auto). auto. }
  apply (kverify_ok P hash) with (l0 := gen1 P) (l1 := smul t0 (gen1 P)) (la := smul a0 (gen1 P)) (lb := smul b0 (gen1 P))
    (lt := x1) (lar := x3) (lbr := x4) (n1 := smul (t * t0)%A (gen1 P)) (na := smul (a * a0)%A (gen1 P))
    (nb := smul (b * b0)%A (gen1 P)) (nt := y1) (nar := y3) (nbr := y4) (m1 := smul (t * t0)%A (gen2 P)) (mt := y2).
  constructor; auto; try congruence.
  - rewrite M1, pe_smul_r, <- pe_smul_l, smul_smul. reflexivity.
  - rewrite M2, pe_smul_r, <- pe_smul_l, smul_smul. reflexivity.
  - rewrite M3, pe_smul_r, <- pe_smul_l, smul_smul. reflexivity.
  - rewrite B2, B2'. rewrite !pe_smul_l, !pe_smul_r, !smul_smul. f_equal. ring.
  - apply test_g2. eapply GL; eauto.
  - apply test_g1. eapply GL; eauto.
  - apply test_g1. eapply GL; eauto.
  - apply test_g1. eapply GL; eauto.
Qed.

Lemma proof_some c ch gt ga gb pf : proof hash c ch gt ga gb = Some pf ->
  prove (hash TTau) ch (ctau c) gt = Some (ptau pf) /\ prove (hash TAlpha) ch (calpha c) ga = Some (palpha pf) /\
  prove (hash TBeta) ch (cbeta c) gb = Some (pbeta pf).
Proof.
  unfold proof. destruct (prove (hash TTau) ch (ctau c) gt); [|discriminate].
  destruct (prove (hash TAlpha) ch (calpha c) ga); [|discriminate].
  destruct (prove (hash TBeta) ch (cbeta c) gb); [|discriminate]. intros [= <-]. auto.
Qed.

Lemma prove_parts t (c : CH) r x (pf : ratio_proof P) : prove (hash t) c r x = Some pf ->
  ratio_ok P hash t pf c /\ matching pf = smul r (hash_of P hash t pf c) /\ nonzero_ratio pf.
Proof.
  intros E. apply prove_some in E as (-> & X & R & Q). unfold ratio_ok, hash_of. cbn.
  rewrite pe_smul_l, pe_smul_r. repeat split; auto; cbn.
  - intros Y. apply smul_zero in Y as [|]; auto.
  - intros Y. apply smul_zero in Y as [|]; auto.
Qed.

(** What an honest contributor sends is accepted, whatever the verifier draws. *)
Theorem c64_honest t0 a0 b0 n1 n2 last next c ch gt ga gb pf : 2 <= n2 -> n2 <= n1 ->
  accum_of t0 a0 b0 n1 n2 n2 n2 last -> update n1 n2 last c = Some next ->
  proof hash c ch gt ga gb = Some pf ->
  nonzero_proof pf /\ forall r1 r2 r3 r4, verify last next ch pf r1 r2 r3 r4 = KOk next.
Proof.
  intros N2 N1 AL U PF. destruct (c64_update t0 a0 b0 n1 n2 last c N1 AL) as (nx & U' & AN).
  assert (nx = next) as -> by congruence.
  apply proof_some in PF as (X & Y & Z). apply prove_parts in X as (X1 & X2 & X3).
  apply prove_parts in Y as (Y1 & Y2 & Y3). apply prove_parts in Z as (Z1 & Z2 & Z3).
  split; [split; auto|]. intros. eapply scaled_checked; eauto.
Qed.

(** The check does not panic on accumulators with two powers in both groups. *)
Theorem c64_no_panic last next ch pf r1 r2 r3 r4 :
  2 <= length (tau_g1 last) -> 1 <= length (alpha_tau_g1 last) -> 1 <= length (beta_tau_g1 last) ->
  2 <= length (tau_g1 next) -> 2 <= length (tau_g2 next) -> 1 <= length (alpha_tau_g1 next) ->
  1 <= length (beta_tau_g1 next) -> verify last next ch pf r1 r2 r3 r4 <> KPanic.
Proof.
  intros A B C D E F G. unfold kverify, proof_verify.
  destruct (tau_g1 last) as [|? [|? ?]]; simpl in A; try lia.
  destruct (alpha_tau_g1 last) as [|? ?]; simpl in B; try lia.
  destruct (beta_tau_g1 last) as [|? ?]; simpl in C; try lia.
  destruct (tau_g1 next) as [|? [|? ?]]; simpl in D; try lia.
  destruct (tau_g2 next) as [|? [|? ?]]; simpl in E; try lia.
  destruct (alpha_tau_g1 next) as [|? ?]; simpl in F; try lia.
  destruct (beta_tau_g1 next) as [|? ?]; simpl in G; try lia.
  rewrite !power_pairs_cons. unfold idx, require, proof_part. cbn [nth_error kbind].
  repeat match goal with
  | |- context [if ?b then _ else _] => destruct b; cbn [kbind]; try discriminate
  | |- context [match ratio_verify ?h ?p ?c with _ => _ end] =>
      destruct (ratio_verify h p c) as [[? ?]|]; cbn [kbind]; try discriminate
  end.
Qed.

(** * C65: the secrets are never lost *)

(** A proof without points at infinity fixes the three factors, and none is zero. *)
Theorem c65_bound t0 a0 b0 k1 k2 k3 k4 last next ch pf r1 r2 r3 r4 x :
  accum_of t0 a0 b0 k1 k2 k3 k4 last -> b0 <> f0 -> nonzero_proof pf ->
  verify last next ch pf r1 r2 r3 r4 = KOk x ->
  exists t a b, ratio_is (ptau pf) t /\ ratio_is (palpha pf) a /\ ratio_is (pbeta pf) b /\
    t <> f0 /\ a <> f0 /\ b <> f0 /\
    (accum_of (t * t0)%A (a * a0)%A (b * b0)%A (length (tau_g1 next)) (length (tau_g2 next))
       (length (alpha_tau_g1 next)) (length (beta_tau_g1 next)) next \/ klucky last next ch pf r1 r2 r3 r4).
Proof.
  intros AL B0 (NT & NA & NB) V.
  apply kverify_inv in V as (-> & l0 & l1 & la & lb & lt & lar & lbr & n1 & na & nb & nt & nar & nbr & m1 & mt & CK).
  assert (forall tg (q : ratio_proof P) (u v : G1 P), nonzero_ratio q -> ratio_ok P hash tg q ch ->
    pe P u (matching q) = pe P v (hash_of P hash tg q ch) ->
    exists r, ratio_is q r /\ r <> f0 /\ v = smul r u) as ONE.
  { intros tg q u v (R0 & R1 & M) OK E. destruct (cyc1 P _ (ratio1 q) R0) as [r R]. exists r. split; [exact R|].
    split; [intros ->; apply R1; rewrite R; apply smul_0|].
    unfold ratio_ok in OK. rewrite R in OK at 1. rewrite pe_smul_l, <- pe_smul_r in OK.
    apply pe_inj_r in OK; auto. rewrite OK in E. rewrite pe_smul_r, <- pe_smul_l in E.
    symmetry. eapply pe_inj_l; [|exact E]. intros Z. apply M. rewrite OK, Z. apply smul_g0. }
  pose proof CK as [L1 LA LB _ _ _ _ PT PA PB T A B _ _ _ _ _].
  destruct (ONE _ _ _ _ NT PT T) as (t & T1 & T2 & T3). destruct (ONE _ _ _ _ NA PA A) as (a & A1 & A2 & A3).
  destruct (ONE _ _ _ _ NB PB B) as (b & B1 & B2 & B3).
  exists t, a, b. repeat (split; [assumption|]).
  destruct AL as [AT AT2 AA AB AB2].
  assert (l1 = smul t0 (gen1 P)) as EL1.
  { rewrite L1 in AT. destruct k1 as [|[|k1]]; [discriminate|rewrite geo_S in AT; discriminate|].
    rewrite !geo_S in AT. congruence. }
  assert (la = smul a0 (gen1 P)) as ELA.
  { rewrite LA in AA. destruct k3 as [|k3]; [discriminate|]. rewrite geo_S in AA. congruence. }
  assert (lb = smul b0 (gen1 P)) as ELB.
  { rewrite LB in AB. destruct k4 as [|k4]; [discriminate|]. rewrite geo_S in AB. congruence. }
  apply (core (t * t0)%A (a * a0)%A (b * b0)%A t0 a0 b0 k1 k2 k3 k4 _ _ _ _ _ _ _ _ _ _ _ _ _ _ _ _ _ _ _ _ _ _ _
    (AccumOf _ _ _ _ _ _ _ _ _ AT AT2 AA AB AB2) B0 CK).
  - now rewrite T3, EL1, smul_smul.
  - now rewrite A3, ELA, smul_smul.
  - now rewrite B3, ELB, smul_smul.
Qed.

(** A chain of accepted contributions with decoded proofs; the challenges are arbitrary. *)
Definition entry : Type := (accum P * CH * kproof P * ((nat -> K) * (nat -> K) * (nat -> K) * (nat -> K))).
Fixpoint chain_ok last (l : list entry) : Prop :=
  match l with
  | [] => True
  | (next, ch, pf, (r1, r2, r3, r4)) :: l =>
      nonzero_proof pf /\ verify last next ch pf r1 r2 r3 r4 = KOk next /\ chain_ok next l
  end.
Fixpoint chain_lucky last (l : list entry) : Prop :=
  match l with
  | [] => False
  | (next, ch, pf, (r1, r2, r3, r4)) :: l => klucky last next ch pf r1 r2 r3 r4 \/ chain_lucky next l
  end.
Definition chain_last last (l : list entry) : accum P :=
  fold_left (fun _ e => match e with (next, _, _, _) => next end) l last.

(** The secrets after a chain are the products of what was there with the factors of the
    proofs. *)
Fixpoint factors (sel : kproof P -> ratio_proof P) (l : list entry) (acc r : K) : Prop :=
  match l with
  | [] => r = acc
  | (_, _, pf, _) :: l => exists t, ratio_is (sel pf) t /\ t <> f0 /\ factors sel l (t * acc)%A r
  end.

Theorem c65_chain l : forall last t0 a0 b0 k1 k2 k3 k4,
  accum_of t0 a0 b0 k1 k2 k3 k4 last -> t0 <> f0 -> a0 <> f0 -> b0 <> f0 -> chain_ok last l ->
  (exists t a b n1 n2 n3 n4, factors ptau l t0 t /\ factors palpha l a0 a /\ factors pbeta l b0 b /\
     t <> f0 /\ a <> f0 /\ b <> f0 /\ accum_of t a b n1 n2 n3 n4 (chain_last last l)) \/ chain_lucky last l.
Proof.
  induction l as [|[[[next ch] pf] [[[r1 r2] r3] r4]] l IH]; intros last t0 a0 b0 k1 k2 k3 k4 AL T0 A0 B0 OK.
  - left. exists t0, a0, b0, k1, k2, k3, k4. repeat (split; [reflexivity|]). auto.
  - destruct OK as (NZ & V & OK).
    destruct (c65_bound _ _ _ _ _ _ _ _ _ _ _ _ _ _ _ _ AL B0 NZ V) as (t & a & b & RT & RA & RB & TN & AN & BN & [AC|LU]).
    2:{ right. left. auto. }
    assert ((t * t0)%A <> f0) as X1 by (apply fmul_nz; auto).
    assert ((a * a0)%A <> f0) as X2 by (apply fmul_nz; auto).
    assert ((b * b0)%A <> f0) as X3 by (apply fmul_nz; auto).
    destruct (IH next (t * t0)%A (a * a0)%A (b * b0)%A _ _ _ _ AC X1 X2 X3 OK) as [(t' & a' & b' & n1 & n2 & n3 & n4 & F1 & F2 & F3 & N1 & N2 & N3 & A')|LU].
    + left. exists t', a', b', n1, n2, n3, n4.
      split; [exists t; auto|]. split; [exists a; auto|]. split; [exists b; auto|]. auto.
    + right. right. auto.
Qed.

(** Without the check made when a proof is decoded, the secrets can be put to zero: an
    accumulator of zeroes is accepted after any other, with a proof of points at infinity. *)
Definition empty_proof : kproof P := KP (default_proof P) (default_proof P) (default_proof P).

Theorem c65_zero t0 a0 b0 n1 n2 last next ch r1 r2 r3 r4 : 2 <= n2 -> n2 <= n1 ->
  accum_of t0 a0 b0 n1 n2 n2 n2 last -> accum_of f0 f0 f0 n1 n2 n2 n2 next ->
  verify last next ch empty_proof r1 r2 r3 r4 = KOk next.
Proof.
  intros N2 N1 AL AN. eapply (scaled_checked f0 f0 f0 t0 a0 b0); eauto.
  - replace (f0 * t0)%A with (f0 : K) by ring. replace (f0 * a0)%A with (f0 : K) by ring.
    replace (f0 * b0)%A with (f0 : K) by ring. auto.
  - unfold ratio_ok. cbn. now rewrite !pe_0_l.
  - unfold ratio_ok. cbn. now rewrite !pe_0_l.
  - unfold ratio_ok. cbn. now rewrite !pe_0_l.
  - cbn. now rewrite smul_0.
  - cbn. now rewrite smul_0.
  - cbn. now rewrite smul_0.
Qed.
End Props.

(** * Examples over the field with seventeen elements *)
Definition yhash (t : tag) (c : N) (x y : G1 P17) : G2 P17 :=
  match t with TTau => z17 (1 + c mod 16) | TAlpha => z17 (1 + (c + 3) mod 16) | TBeta => z17 (1 + (c + 7) mod 16) end.
Definition yc1 : contribution P17 := Contrib (k17 3) (k17 5) (k17 7).
Definition yc2 : contribution P17 := Contrib (k17 2) (k17 11) (k17 4).
Definition y0 : accum P17 := acc_default P17 5 3.
Definition yupd (a : accum P17) c := match update 5 3 a c with Some a => a | None => a end.
Definition y1 := yupd y0 yc1.
Definition y2 := yupd y1 yc2.
Definition ypf (c : contribution P17) (ch : N) :=
  match proof yhash c ch (p1 5) (p1 6) (p1 2) with Some pf => pf | None => empty_proof P17 end.
Definition yrho (n : nat) : sc P17 := k17 (N.of_nat n + 2).

Lemma ymade c ch : ctau c <> f0 -> calpha c <> f0 -> cbeta c <> f0 ->
  yhash TTau ch (p1 5) (p1 5) <> g0 -> yhash TAlpha ch (p1 5) (p1 5) <> g0 -> yhash TBeta ch (p1 5) (p1 5) <> g0 ->
  proof yhash c ch (p1 5) (p1 6) (p1 2) = Some (ypf c ch).
Proof.
  intros A B C D E F. unfold ypf, proof.
  rewrite !(prove_total P17); auto; try (apply nz17; vm_compute; reflexivity).
Qed.

Lemma yacc0 : accum_of (k17 1) (k17 1) (k17 1) 5 3 3 3 y0.
Proof. exact (c64_default P17 5 3). Qed.

Lemma yacc c t a b acc : accum_of t a b 5 3 3 3 acc ->
  update 5 3 acc c = Some (yupd acc c) /\
  accum_of (fmul (ctau c) t) (fmul (calpha c) a) (fmul (cbeta c) b) 5 3 3 3 (yupd acc c).
Proof.
  intros A. unfold yupd. destruct (c64_update P17 t a b 5 3 acc c) as (x & E & F); auto.
  rewrite E. auto.
Qed.

(** Two contributions with the factors 3, 5, 7 and 2, 11, 4 are made and accepted. *)
Example c64_example :
  update 5 3 y0 yc1 = Some y1 /\ update 5 3 y1 yc2 = Some y2 /\
  proof yhash yc1 0%N (p1 5) (p1 6) (p1 2) = Some (ypf yc1 0) /\
  kverify yhash y0 y1 0%N (ypf yc1 0) yrho yrho yrho yrho = KOk y1 /\
  proof yhash yc2 1%N (p1 5) (p1 6) (p1 2) = Some (ypf yc2 1) /\
  kverify yhash y1 y2 1%N (ypf yc2 1) yrho yrho yrho yrho = KOk y2 /\
  nonzero_proof (ypf yc1 0) /\ nonzero_proof (ypf yc2 1) /\
  pts_eqb (tau_g1 y2) (map p1 [1; 6; 36; 216; 1296]%N) = true.
Proof.
  destruct (yacc yc1 _ _ _ _ yacc0) as [U1 A1]. destruct (yacc yc2 _ _ _ _ A1) as [U2 A2].
  assert (proof yhash yc1 0%N (p1 5) (p1 6) (p1 2) = Some (ypf yc1 0)) as F1
    by (apply ymade; apply nz17; vm_compute; reflexivity).
  assert (proof yhash yc2 1%N (p1 5) (p1 6) (p1 2) = Some (ypf yc2 1)) as F2
    by (apply ymade; apply nz17; vm_compute; reflexivity).
  destruct (c64_honest P17 yhash _ _ _ 5 3 y0 y1 yc1 _ _ _ _ _ ltac:(lia) ltac:(lia) yacc0 U1 F1) as [Z1 V1].
  destruct (c64_honest P17 yhash _ _ _ 5 3 y1 y2 yc2 _ _ _ _ _ ltac:(lia) ltac:(lia) A1 U2 F2) as [Z2 V2].
  split; [exact U1|]. split; [exact U2|]. split; [exact F1|]. split; [exact (V1 yrho yrho yrho yrho)|].
  split; [exact F2|]. split; [exact (V2 yrho yrho yrho yrho)|]. split; [exact Z1|]. split; [exact Z2|].
  vm_compute. reflexivity.
Qed.

(** The accumulators have enough points for the check not to panic. *)
Example c64_lengths : length (tau_g1 y0) = 5 /\ length (tau_g2 y1) = 3 /\ length (alpha_tau_g1 y1) = 3.
Proof. repeat split; vm_compute; reflexivity. Qed.

(** A wrong power is rejected, unless the scalars drawn for it are zero. *)
Definition k_rejected {A} (r : kres A) : bool := match r with KErr AlphaG1Powers => true | _ => false end.
Definition k_accepted {A} (r : kres A) : bool := match r with KOk _ => true | _ => false end.
Definition ybad : accum P17 :=
  Acc (tau_g1 y1) (tau_g2 y1) (removelast (alpha_tau_g1 y1) ++ [p1 1]) (beta_tau_g1 y1) (kbeta_g2 y1).
Example c64_wrong_rejected :
  k_rejected (kverify yhash y0 ybad 0%N (ypf yc1 0) yrho yrho yrho yrho) = true /\
  k_accepted (kverify yhash y0 ybad 0%N (ypf yc1 0) yrho yrho (upd yrho 1 (k17 0)) yrho) = true.
Proof. split; vm_compute; reflexivity. Qed.

(** A chain that meets the hypotheses, from the first accumulator. *)
Definition ychain : list (entry P17) :=
  [(y1, 0%N, ypf yc1 0, (yrho, yrho, yrho, yrho)); (y2, 1%N, ypf yc2 1, (yrho, yrho, yrho, yrho))].
Example c65_example : chain_ok P17 yhash y0 ychain /\ (f1 : sc P17) <> f0.
Proof.
  split; [|apply f1_nz]. destruct c64_example as (_ & _ & _ & V1 & _ & V2 & Z1 & Z2 & _).
  split; [exact Z1|]. split; [exact V1|]. split; [exact Z2|]. split; [exact V2|]. exact I.
Qed.

(** The accumulator of zeroes. *)
Definition yzero : accum P17 :=
  Acc (p1 1 :: repeat (p1 0) 4) (p2 1 :: repeat (p2 0) 2) (repeat (p1 0) 3) (repeat (p1 0) 3) (p2 0).

Lemma yzero_of : accum_of (k17 0) (k17 0) (k17 0) 5 3 3 3 yzero.
Proof.
  constructor.
  - apply (pts_eqb_spec P17 (G1 P17)). vm_compute. reflexivity.
  - apply (pts_eqb_spec P17 (G2 P17)). vm_compute. reflexivity.
  - apply (pts_eqb_spec P17 (G1 P17)). vm_compute. reflexivity.
  - apply (pts_eqb_spec P17 (G1 P17)). vm_compute. reflexivity.
  - apply (proj1 (feqb_spec F17 _ _)). vm_compute. reflexivity.
Qed.

(** The check by itself does not keep the secrets: after two honest contributions a third
    participant puts all of them to zero, and every verifier accepts. *)
Theorem c65_unchecked_refuted :
  exists (last next : accum P17),
    accum_of (fmul (k17 2) (fmul (k17 3) (k17 1))) (fmul (k17 11) (fmul (k17 5) (k17 1))) (fmul (k17 4) (fmul (k17 7) (k17 1))) 5 3 3 3 last /\
    accum_of f0 f0 f0 5 3 3 3 next /\
    forall r1 r2 r3 r4, kverify yhash last next 2%N (KP (RP g0 g0 g0) (RP g0 g0 g0) (RP g0 g0 g0)) r1 r2 r3 r4 = KOk next.
Proof.
  exists y2, yzero. destruct (yacc yc1 _ _ _ _ yacc0) as [_ A1]. destruct (yacc yc2 _ _ _ _ A1) as [_ A2].
  split; [exact A2|]. split; [exact yzero_of|]. intros r1 r2 r3 r4.
  exact (c65_zero P17 yhash _ _ _ 5 3 y2 yzero 2%N r1 r2 r3 r4 ltac:(lia) ltac:(lia) A2 yzero_of).
Qed.

Print Assumptions c64_default.
Print Assumptions c64_update.
Print Assumptions c64_sound.
Print Assumptions c64_honest.
Print Assumptions c64_no_panic.
Print Assumptions c65_bound.
Print Assumptions c65_chain.
Print Assumptions c65_zero.
Print Assumptions c65_unchecked_refuted.
