(** Lemmas on powers of tau. *)
From Coq Require Import List Arith Bool Lia Field_theory Ring.
From Verif Require Import AlgBase MpModel MpSpec MpLemmas KzModel KzSpec.
Import ListNotations.

Section Geo.
Variable P : pairing.
Notation K := (sc P).
Add Ring Kr4 : (F_R (fth (sc P))).
Variable g : grp (sc P).
Implicit Types (x : g) (l : list g).

Lemma geo_S (t : K) x n : geometric t x (S n) = x :: geometric t (smul t x) n.
Proof.
  unfold geometric. simpl. rewrite smul_1. f_equal. rewrite <- seq_shift, map_map.
  apply map_ext. intros i. simpl. rewrite smul_smul. f_equal. ring.
Qed.

Lemma geo_len (t : K) x n : length (geometric t x n) = n.
Proof. unfold geometric. now rewrite map_length, seq_length. Qed.

(** Every point but the first is [t] times the one before. *)
Lemma geo_steps (t : K) l : forall x, map (fun y => smul t y) (removelast (x :: l)) = l <->
  x :: l = geometric t x (S (length l)).
Proof.
  induction l as [|y l IH]; intros x.
  - simpl length. rewrite geo_S. simpl. tauto.
  - change (removelast (x :: y :: l)) with (x :: removelast (y :: l)). simpl map. simpl length.
    rewrite geo_S. specialize (IH y). split.
    + intros [= E F]. rewrite E. f_equal. rewrite <- IH. auto.
    + intros H. assert (y :: l = geometric t (smul t x) (S (length l))) as F by congruence.
      assert (y = smul t x) as -> by (rewrite geo_S in F; congruence). f_equal. now apply IH.
Qed.

Lemma removelast_len x l : length (removelast (x :: l)) = length l.
Proof.
  revert x. induction l as [|y l IH]; intros; auto.
  change (removelast (x :: y :: l)) with (x :: removelast (y :: l)). cbn [length]. now rewrite IH.
Qed.

Lemma power_pairs_cons rho x l :
  power_pairs rho (x :: l) = KOk (lin rho 0 (removelast (x :: l)), lin rho 0 l).
Proof. unfold power_pairs. rewrite merge_lin; auto. apply removelast_len. Qed.

(** The combination test at ratio [t], and what it says about the list. *)
Lemma combined_geo (t : K) rho x l : x :: l = geometric t x (S (length l)) ->
  lin rho 0 l = smul t (lin rho 0 (removelast (x :: l))).
Proof. intros E. apply geo_steps in E. now rewrite <- lin_smul, E. Qed.

Lemma combined_once (t : K) x l : x :: l <> geometric t x (S (length l)) ->
  exists i, i < length l /\ forall rho v, v <> rho i ->
    lin rho 0 l = smul t (lin rho 0 (removelast (x :: l))) ->
    lin (upd rho i v) 0 l <> smul t (lin (upd rho i v) 0 (removelast (x :: l))).
Proof.
  intros Ne. assert (map (fun y => smul t y) (removelast (x :: l)) <> l) as D by (now rewrite geo_steps).
  apply lists_differ in D as (i & y & z & Y & Z & YZ); [|now rewrite map_length, removelast_len].
  exists i. split; [apply nth_error_Some; congruence|]. intros rho v V E E'. apply YZ.
  rewrite <- lin_smul in E, E'. symmetry in E, E'.
  exact (lin_once P g rho i v _ _ y z Y Z V E E').
Qed.

(** Multiplying a geometric list by powers, pairwise. *)
Lemma mul_geo (t r a : K) x m : forall n p,
  mul_first (geometric t x n) (map (fun s => fmul s a) (powers m r p)) =
  geometric (r * t)%A (smul (m * a)%A x) (Nat.min n p) ++ skipn p (geometric t x n).
Proof.
  intros n. revert x m. induction n as [|n IH]; intros x m p; [now destruct p|].
  destruct p as [|p].
  - reflexivity.
  - rewrite geo_S. simpl powers. simpl map. simpl mul_first. simpl Nat.min. rewrite geo_S. simpl.
    f_equal. rewrite IH. f_equal. f_equal. rewrite !smul_smul. f_equal. ring.
Qed.

Lemma map_fmul1 (l : list K) : map (fun s => fmul s f1) l = l.
Proof. rewrite <- (map_id l) at 2. apply map_ext. intros. ring. Qed.

Lemma powers_firstn (m r : K) : forall n p, firstn p (powers m r n) = powers m r (Nat.min p n).
Proof. intros n. revert m. induction n as [|n IH]; intros m [|p]; simpl; auto. now rewrite IH. Qed.

Lemma powers_len (m r : K) n : length (powers m r n) = n.
Proof. revert m. induction n; simpl; auto. Qed.

Lemma mul_first_len (l : list g) rs : length (mul_first l rs) = length l.
Proof. revert rs. induction l; intros [|]; simpl; auto. Qed.

Lemma mul_first_firstn (rs : list K) : forall n l, firstn n (mul_first l rs) = mul_first (firstn n l) (firstn n rs).
Proof. induction rs as [|r rs IH]; intros [|n] [|x l]; simpl; auto. now rewrite IH. Qed.

Lemma mul_first_skipn (rs : list K) : forall n l, skipn n (mul_first l rs) = mul_first (skipn n l) (skipn n rs).
Proof.
  induction rs as [|r rs IH]; intros [|n] [|x l]; simpl; auto.
  now destruct (skipn n l).
Qed.

(** What [update] does to the list in G1 in two pieces is one multiplication. *)
Lemma mul_split (l : list g) (rs : list K) n : n <= length rs ->
  firstn n (mul_first l (firstn n rs)) ++ mul_first (skipn n (mul_first l (firstn n rs))) (skipn n rs)
  = mul_first l rs.
Proof.
  intros L. rewrite <- (firstn_skipn n (mul_first l rs)). f_equal.
  - rewrite !mul_first_firstn, firstn_firstn. now rewrite Nat.min_id.
  - rewrite !mul_first_skipn. rewrite skipn_all2 with (l := firstn n rs) by (rewrite firstn_length; lia).
    destruct (skipn n l); auto.
Qed.
End Geo.

Section Verify.
Variable P : pairing.
Notation K := (sc P).
Add Ring Kr5 : (F_R (fth (sc P))).
Context {CH : Type}.
Variable hash : tag -> CH -> G1 P -> G1 P -> G2 P.

Definition hash_of (t : tag) (pf : ratio_proof P) (ch : CH) : G2 P := hash t ch (ratio0 pf) (ratio1 pf).
Definition ratio_ok (t : tag) (pf : ratio_proof P) (ch : CH) : Prop :=
  pe P (ratio0 pf) (matching pf) = pe P (ratio1 pf) (hash_of t pf ch).

Lemma part_iff t e pf ch r : proof_part hash t e pf ch = KOk r <->
  ratio_ok t pf ch /\ r = (matching pf, hash_of t pf ch).
Proof.
  unfold proof_part, ratio_verify, same, has_same, eval, ratio_ok, hash_of. cbn [fst snd].
  match goal with |- context [geqb ?a ?b] => destruct (geqb a b) eqn:E end.
  - apply geqb_spec in E. split; [intros [= <-]; auto|intros [_ ->]; auto].
  - split; [discriminate|]. intros [X _]. apply geqb_spec in X. congruence.
Qed.

Lemma bind_ok {A B} (r : kres A) (f : A -> kres B) x : kbind r f = KOk x <-> exists a, r = KOk a /\ f a = KOk x.
Proof.
  destruct r; simpl; split; try discriminate.
  - eauto.
  - intros (b & [= ->] & E). auto.
  - intros (b & [=] & _).
  - intros (b & [=] & _).
Qed.

Lemma require_ok b e x : require b e = KOk x <-> b = true.
Proof. unfold require. destruct b, x; split; auto; discriminate. Qed.

Lemma idx_ok {A} (l : list A) i x : idx l i = KOk x <-> nth_error l i = Some x.
Proof. unfold idx. destruct (nth_error l i); split; congruence. Qed.

Lemma same_iff (a c : G1 P) (b d : G2 P) : has_same (a, b) (c, d) = true <-> pe P a b = pe P c d.
Proof. unfold has_same, eval. apply geqb_spec. Qed.

(** Everything that is checked, in one place. *)
Record checked (last next : accum P) ch (pf : kproof P) (r1 r2 r3 r4 : nat -> K)
  (l0 l1 la lb : G1 P) (lt lar lbr : list (G1 P)) (n1 na nb : G1 P) (nt nar nbr : list (G1 P))
  (m1 : G2 P) (mt : list (G2 P)) : Prop := Checked {
  k_last1 : tau_g1 last = l0 :: l1 :: lt;
  k_lasta : alpha_tau_g1 last = la :: lar;
  k_lastb : beta_tau_g1 last = lb :: lbr;
  k_next1 : tau_g1 next = gen1 P :: n1 :: nt;
  k_next2 : tau_g2 next = gen2 P :: m1 :: mt;
  k_nexta : alpha_tau_g1 next = na :: nar;
  k_nextb : beta_tau_g1 next = nb :: nbr;
  k_pt : ratio_ok TTau (ptau pf) ch;
  k_pa : ratio_ok TAlpha (palpha pf) ch;
  k_pb : ratio_ok TBeta (pbeta pf) ch;
  k_t : pe P l1 (matching (ptau pf)) = pe P n1 (hash_of TTau (ptau pf) ch);
  k_a : pe P la (matching (palpha pf)) = pe P na (hash_of TAlpha (palpha pf) ch);
  k_b : pe P lb (matching (pbeta pf)) = pe P nb (hash_of TBeta (pbeta pf) ch);
  k_b2 : pe P lb (kbeta_g2 next) = pe P nb (kbeta_g2 last);
  k_1 : pe P (gen1 P) (lin r1 0 (m1 :: mt)) = pe P n1 (lin r1 0 (removelast (gen2 P :: m1 :: mt)));
  k_2 : pe P (lin r2 0 (removelast (gen1 P :: n1 :: nt))) m1 = pe P (lin r2 0 (n1 :: nt)) (gen2 P);
  k_3 : pe P (lin r3 0 (removelast (na :: nar))) m1 = pe P (lin r3 0 nar) (gen2 P);
  k_4 : pe P (lin r4 0 (removelast (nb :: nbr))) m1 = pe P (lin r4 0 nbr) (gen2 P)
}.

Lemma nth0 {A} (l : list A) x : nth_error l 0 = Some x -> exists r, l = x :: r.
Proof. destruct l; intros [= ->]; eauto. Qed.

Lemma nth1 {A} (l : list A) x : nth_error l 1 = Some x -> exists y r, l = y :: x :: r.
Proof. destruct l as [|y [|z l]]; intros [= ->]; eauto. Qed.

Lemma kverify_inv last next ch pf r1 r2 r3 r4 x : kverify hash last next ch pf r1 r2 r3 r4 = KOk x ->
  x = next /\ exists l0 l1 la lb lt lar lbr n1 na nb nt nar nbr m1 mt,
    checked last next ch pf r1 r2 r3 r4 l0 l1 la lb lt lar lbr n1 na nb nt nar nbr m1 mt.
Proof.
  unfold kverify, proof_verify. intros E.
  apply bind_ok in E as (n0 & A1 & E). apply bind_ok in E as (? & A2 & E).
  apply bind_ok in E as (m0 & A3 & E). apply bind_ok in E as (? & A4 & E).
  apply bind_ok in E as ([[tau alpha] beta] & A5 & E).
  apply bind_ok in A5 as (? & P1 & A5). apply bind_ok in A5 as (? & P2 & A5). apply bind_ok in A5 as (? & P3 & A5).
  injection A5 as -> -> ->. apply part_iff in P1 as [P1 ->]. apply part_iff in P2 as [P2 ->]. apply part_iff in P3 as [P3 ->].
  cbn [fst snd] in E.
  apply bind_ok in E as (l1 & B1 & E). apply bind_ok in E as (n1 & B2 & E). apply bind_ok in E as (? & B3 & E).
  apply bind_ok in E as (la & B4 & E). apply bind_ok in E as (na & B5 & E). apply bind_ok in E as (? & B6 & E).
  apply bind_ok in E as (lb & B7 & E). apply bind_ok in E as (nb & B8 & E). apply bind_ok in E as (? & B9 & E).
  apply bind_ok in E as (? & B10 & E).
  apply bind_ok in E as (q1 & C1 & E). apply bind_ok in E as (? & C2 & E).
  apply bind_ok in E as (q2 & C3 & E). apply bind_ok in E as (m1 & C4 & E). apply bind_ok in E as (? & C5 & E).
  apply bind_ok in E as (q3 & C6 & E). apply bind_ok in E as (? & C7 & E).
  apply bind_ok in E as (q4 & C8 & E). apply bind_ok in E as (? & C9 & E).
  assert (x = next) as -> by congruence. split; auto.
  apply require_ok in A2, A4, B3, B6, B9, B10, C2, C5, C7, C9.
  apply geqb_spec in A2, A4. apply same_iff in B3, B6, B9, B10.
  apply idx_ok in A1, A3, B1, B2, B4, B5, B7, B8, C4.
  apply nth1 in B1 as (l0 & lt & B1). apply nth1 in B2 as (n0' & nt & B2). apply nth1 in C4 as (m0' & mt & C4).
  apply nth0 in B4 as (lar & B4). apply nth0 in B5 as (nar & B5). apply nth0 in B7 as (lbr & B7). apply nth0 in B8 as (nbr & B8).
  rewrite B2 in A1, C3. rewrite C4 in A3, C1. rewrite B5 in C6. rewrite B8 in C8.
  simpl in A1, A3. assert (n0' = gen1 P) by congruence. assert (m0' = gen2 P) by congruence.
  assert (n0 = gen1 P) by congruence. assert (m0 = gen2 P) by congruence. subst n0' m0' n0 m0.
  rewrite power_pairs_cons in C1, C3, C6, C8.
  injection C1 as <-. injection C3 as <-. injection C6 as <-. injection C8 as <-.
  unfold fst, snd in C2, C5, C7, C9. apply same_iff in C2, C5, C7, C9.
  exists l0, l1, la, lb, lt, lar, lbr, n1, na, nb, nt, nar, nbr, m1, mt. constructor; auto.
Qed.

Lemma kverify_ok last next ch pf r1 r2 r3 r4 l0 l1 la lb lt lar lbr n1 na nb nt nar nbr m1 mt :
  checked last next ch pf r1 r2 r3 r4 l0 l1 la lb lt lar lbr n1 na nb nt nar nbr m1 mt ->
  kverify hash last next ch pf r1 r2 r3 r4 = KOk next.
Proof.
  intros [L1 LA LB N1 N2 NA NB PT PA PB T A B B2 C1 C2 C3 C4].
  unfold kverify, proof_verify.
  assert (forall t e q, ratio_ok t q ch -> proof_part hash t e q ch = KOk (matching q, hash_of t q ch)) as PP
    by (intros; apply part_iff; auto).
  rewrite L1, LA, LB, N1, N2, NA, NB, !power_pairs_cons.
  rewrite (PP TTau TauKnowledge _ PT), (PP TAlpha AlphaKnowledge _ PA), (PP TBeta BetaKnowledge _ PB).
  unfold idx. cbn [nth_error kbind fst snd]. rewrite !geqb_refl. cbn [require kbind].
  apply same_iff in T, A, B, B2, C1, C2, C3, C4.
  rewrite T. cbn [require kbind]. rewrite A. cbn [require kbind]. rewrite B. cbn [require kbind].
  rewrite B2. cbn [require kbind]. rewrite C1. cbn [require kbind]. rewrite C2. cbn [require kbind].
  rewrite C3. cbn [require kbind]. rewrite C4. reflexivity.
Qed.
End Verify.
