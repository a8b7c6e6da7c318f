(** Lemmas on the contribution checks. *)
From Coq Require Import List Arith Bool Lia Field_theory Ring.
From Verif Require Import AlgBase MpModel MpSpec.
Import ListNotations.

Section Lin.
Variable P : pairing.
Notation K := (sc P).
Add Ring Kr : (F_R (fth (sc P))).
Variable g : grp K.

(** The linear combination, from index [k] on. *)
Fixpoint lin (rho : nat -> K) (k : nat) (l : list g) : g :=
  match l with
  | [] => g0
  | x :: l => gadd (smul (rho k) x) (lin rho (S k) l)
  end.

Lemma merge_fold rho l : forall r k acc, length l = length r ->
  fold_left (fun (acc x : g * g) => (gadd (fst acc) (fst x), gadd (snd acc) (snd x)))
    (map (fun x => (smul (fst x) (fst (snd x)), smul (fst x) (snd (snd x))))
      (combine (map rho (seq k (length l))) (combine l r))) acc
  = (gadd (fst acc) (lin rho k l), gadd (snd acc) (lin rho k r)).
Proof.
  induction l as [|x l IH]; intros [|y r] k [a b] E; simpl in *; try discriminate.
  - now rewrite !gadd_0.
  - injection E as E. rewrite (IH r (S k)); auto. simpl. now rewrite !gadd_assoc.
Qed.

Lemma merge_lin rho (l r : list g) : length l = length r ->
  merge_pairs rho l r = Some (lin rho 0 l, lin rho 0 r).
Proof.
  intros E. unfold merge_pairs. rewrite (proj2 (Nat.eqb_eq _ _) E), merge_fold by auto. simpl.
  now rewrite !gadd_0_l.
Qed.

Lemma lin_smul rho (r : K) l : forall k, lin rho k (map (fun x => smul r x) l) = smul r (lin rho k l).
Proof.
  induction l as [|x l IH]; intros k; simpl.
  - now rewrite smul_g0.
  - rewrite IH, smul_gadd, !smul_smul. f_equal. f_equal. ring.
Qed.

Lemma lin_ext rho rho' l : forall k, (forall j, k <= j -> rho j = rho' j) -> lin rho k l = lin rho' k l.
Proof.
  induction l as [|x l IH]; intros k E; simpl; auto.
  rewrite (E k) by lia. f_equal. apply IH. intros. apply E. lia.
Qed.

Lemma lin_upd rho i v l : forall k x, k <= i -> nth_error l (i - k) = Some x ->
  lin (upd rho i v) k l = gadd (lin rho k l) (smul (v - rho i)%A x).
Proof.
  induction l as [|y l IH]; intros k x Hk E; [destruct (i - k); discriminate|].
  simpl. destruct (Nat.eq_dec k i) as [->|Ne].
  - replace (i - i) with 0 in E by lia. injection E as ->.
    unfold upd at 1. rewrite Nat.eqb_refl.
    rewrite (lin_ext (upd rho i v) rho).
    2: { intros j Hj. unfold upd. destruct (Nat.eqb_spec j i); auto. lia. }
    replace (smul v x) with (gadd (smul (rho i) x) (smul (v - rho i)%A x)).
    + rewrite <- !gadd_assoc. f_equal. apply gadd_comm.
    + rewrite <- smul_add. f_equal. ring.
  - replace (i - k) with (S (i - S k)) in E by lia. simpl in E.
    rewrite (IH (S k) x) by (auto; lia).
    unfold upd. destruct (Nat.eqb_spec k i); [lia|]. now rewrite gadd_assoc.
Qed.

(** Where two lists differ, at most one scalar makes the combinations agree. *)
Lemma lin_once rho i v (a b : list g) x y :
  nth_error a i = Some x -> nth_error b i = Some y -> v <> rho i ->
  lin rho 0 a = lin rho 0 b -> lin (upd rho i v) 0 a = lin (upd rho i v) 0 b -> x = y.
Proof.
  intros Hx Hy V E E'.
  rewrite (lin_upd rho i v a 0 x), (lin_upd rho i v b 0 y) in E'; try lia.
  2,3: now rewrite Nat.sub_0_r.
  rewrite E in E'. rewrite !(gadd_comm _ _ (lin rho 0 b)) in E'. apply gadd_cancel in E'.
  apply (smul_inj_r K g (v - rho i)%A); auto.
  intros Z. apply V. now apply fsub_eq0.
Qed.

Lemma lists_differ (a b : list g) : length a = length b -> a <> b ->
  exists i x y, nth_error a i = Some x /\ nth_error b i = Some y /\ x <> y.
Proof.
  revert b. induction a as [|x a IH]; intros [|y b] L N; simpl in *; try discriminate; [congruence|].
  destruct (geq_dec K g x y) as [->|Ne].
  - destruct (IH b) as (i & u & w & A & B & C); [lia|congruence|]. exists (S i), u, w; auto.
  - exists 0, x, y; auto.
Qed.

Lemma pts_eqb_spec (a b : list g) : pts_eqb a b = true <-> a = b.
Proof.
  revert b. induction a as [|x a IH]; intros [|y b]; simpl; split; intros; auto; try discriminate.
  - apply andb_true_iff in H as [E F]. apply geqb_spec in E. apply IH in F. congruence.
  - injection H as -> ->. rewrite geqb_refl. now apply IH.
Qed.

Lemma map_smul_smul (r s : K) (l : list g) :
  map (fun x => smul r x) (map (fun x => smul s x) l) = map (fun x => smul (r * s)%A x) l.
Proof. rewrite map_map. apply map_ext. intros. apply smul_smul. Qed.

Lemma map_smul_1 (l : list g) : map (fun x => smul f1 x) l = l.
Proof. rewrite <- (map_id l) at 2. apply map_ext. intros. apply smul_1. Qed.
End Lin.
Arguments lin {P g}.

Section Checks.
Variable P : pairing.
Notation K := (sc P).
Add Ring Kr2 : (F_R (fth (sc P))).
Implicit Types s prev next : state P.

Lemma invariants_iff prev next : check_invariants prev next = None <->
  length (h_query prev) = length (h_query next) /\ length (l_query prev) = length (l_query next) /\
  a_query prev = a_query next /\ b_g1_query prev = b_g1_query next /\ b_g2_query prev = b_g2_query next /\
  alpha_g1 prev = alpha_g1 next /\ beta_g1 prev = beta_g1 next /\ beta_g2 prev = beta_g2 next /\
  gamma_g2 prev = gamma_g2 next /\ gamma_abc_g1 prev = gamma_abc_g1 next.
Proof.
  unfold check_invariants. split.
  - intros E.
    repeat match type of E with (if negb ?b then _ else _) = _ => destruct b eqn:?; simpl in E; [|discriminate E] end.
    rewrite Nat.eqb_eq, pts_eqb_spec, geqb_spec in *. tauto.
  - intros (A & B & C & D & E & F & G & H & I & J).
    rewrite A, B, C, D, E, F, G, H, I, J, !Nat.eqb_refl, !geqb_refl.
    rewrite !(proj2 (pts_eqb_spec _ _ _ _) eq_refl). reflexivity.
Qed.

Lemma same_ratio_iff (x y : G1 P) (a b : G2 P) : same_ratio (x, y) (a, b) = true <-> pe P x b = pe P y a.
Proof. unfold same_ratio, has_same, eval. simpl. apply geqb_spec. Qed.

(** With the second ratio known to be [r], the test says that the first one is [r]. *)
Lemma same_ratio_r (r : K) (x y : G1 P) (a : G2 P) : a <> g0 ->
  same_ratio (x, y) (a, smul r a) = true <-> smul r x = y.
Proof.
  intros A. rewrite same_ratio_iff, pe_smul_r, <- pe_smul_l. split.
  - apply pe_inj_l; auto.
  - intros ->; auto.
Qed.

Lemma change_iff (r : K) prev next rh rl :
  delta_g2 prev <> g0 -> delta_g2 next = smul r (delta_g2 prev) ->
  length (h_query prev) = length (h_query next) -> length (l_query prev) = length (l_query next) ->
  check_change prev next rh rl = MOk tt <->
  delta_g1 next = smul r (delta_g1 prev) /\
  lin rh 0 (map (fun x => smul r x) (h_query next)) = lin rh 0 (h_query prev) /\
  lin rl 0 (map (fun x => smul r x) (l_query next)) = lin rl 0 (l_query prev).
Proof.
  intros D E LH LL. unfold check_change. rewrite !merge_lin, E by auto. rewrite !lin_smul.
  pose proof (same_ratio_r r (delta_g1 prev) (delta_g1 next) _ D) as A.
  pose proof (same_ratio_r r (lin rh 0 (h_query next)) (lin rh 0 (h_query prev)) _ D) as B.
  pose proof (same_ratio_r r (lin rl 0 (l_query next)) (lin rl 0 (l_query prev)) _ D) as C.
  destruct (same_ratio (delta_g1 prev, _) _); simpl.
  - destruct (same_ratio (lin rh 0 (h_query next), _) _); simpl.
    + destruct (same_ratio (lin rl 0 (l_query next), _) _); simpl.
      * split; auto. intros _. repeat split; [symmetry|..]; tauto.
      * split; [discriminate|]. intros (_ & _ & X). apply C in X. discriminate.
    + split; [discriminate|]. intros (_ & X & _). apply B in X. discriminate.
  - split; [discriminate|]. intros (X & _). symmetry in X. apply A in X. discriminate.
Qed.

Lemma change_no_panic prev next rh rl :
  length (h_query prev) = length (h_query next) -> length (l_query prev) = length (l_query next) ->
  check_change prev next rh rl <> MPanic.
Proof.
  intros LH LL. unfold check_change. rewrite !merge_lin by auto.
  repeat match goal with |- (if ?b then _ else _) <> _ => destruct b end; discriminate.
Qed.

Lemma scaled_invariants r prev next : scaled r prev next -> check_invariants prev next = None.
Proof.
  intros [D1 D2 SH SL A B B2 G AB AQ B1Q B2Q]. apply invariants_iff.
  rewrite <- SH, <- SL, !map_length. repeat split; auto.
Qed.

Lemma scaled_change r prev next rh rl : scaled r prev next -> check_change prev next rh rl = MOk tt.
Proof.
  intros [D1 D2 SH SL _ _ _ _ _ _ _ _].
  assert (length (h_query next) = length (h_query prev)) as LH by (rewrite <- SH; now rewrite map_length).
  assert (length (l_query next) = length (l_query prev)) as LL by (rewrite <- SL; now rewrite map_length).
  unfold check_change. rewrite !merge_lin by auto.
  assert (forall (x y : G1 P), smul r x = y -> same_ratio (x, y) (delta_g2 prev, delta_g2 next) = true) as R.
  { intros x y <-. apply same_ratio_iff. now rewrite D2, pe_smul_l, pe_smul_r. }
  rewrite !R; auto.
  - now rewrite <- lin_smul, SL.
  - now rewrite <- lin_smul, SH.
Qed.

Lemma scaled_refl s : scaled f1 s s.
Proof. constructor; auto; rewrite ?smul_1, ?map_smul_1; auto. Qed.

Lemma scaled_trans r r' s s' s'' : scaled r s s' -> scaled r' s' s'' -> scaled (r' * r)%A s s''.
Proof.
  intros [A1 A2 A3 A4 A5 A6 A7 A8 A9 A10 A11 A12] [B1 B2 B3 B4 B5 B6 B7 B8 B9 B10 B11 B12].
  constructor; try congruence.
  - now rewrite B1, A1, smul_smul.
  - now rewrite B2, A2, smul_smul.
  - rewrite <- A3, <- B3, map_smul_smul. apply map_ext. intros. f_equal. ring.
  - rewrite <- A4, <- B4, map_smul_smul. apply map_ext. intros. f_equal. ring.
Qed.

Lemma scaled_sym r s s' : r <> f0 -> scaled r s s' -> scaled (finv r) s' s.
Proof.
  intros R [A1 A2 A3 A4 A5 A6 A7 A8 A9 A10 A11 A12].
  constructor; try congruence.
  - now rewrite A1, smul_smul, finv_l, smul_1.
  - now rewrite A2, smul_smul, finv_l, smul_1.
  - now rewrite <- A3, map_smul_smul, finv_l, map_smul_1.
  - now rewrite <- A4, map_smul_smul, finv_l, map_smul_1.
Qed.

(** From a usable state, [r] is not zero and the next state is usable. *)
Lemma scaled_live r s s' : live s -> scaled r s s' -> r <> f0 /\ live s'.
Proof.
  intros [D (x & X & XN)] SC. assert (R : r <> f0).
  { intros ->. apply XN. destruct SC as [_ _ SH SL _ _ _ _ _ _ _ _].
    apply in_app_iff in X as [X|X]; [rewrite <- SH in X|rewrite <- SL in X];
      apply in_map_iff in X as (y & <- & _); apply smul_0. }
  split; auto. destruct SC as [_ D2 SH SL _ _ _ _ _ _ _ _]. split.
  - rewrite D2. intros E. apply smul_zero in E as [E|E]; auto.
  - apply in_app_iff in X as [X|X]; [rewrite <- SH in X|rewrite <- SL in X];
      apply in_map_iff in X as (y & <- & Y); exists y;
      (split; [apply in_app_iff; auto|intros ->; apply XN, smul_g0]).
Qed.
End Checks.

Section Verify.
Variable P : pairing.
Context {CH : Type}.
Variable hash : CH -> G1 P -> G1 P -> G2 P.
Variable chal : CH -> state P -> state P -> ratio_proof P -> CH.
Notation K := (sc P).
Notation verify := (verify_transform hash chal).
Implicit Types s prev next : state P.

Lemma verify_iff c prev next pf rh rl x :
  verify c prev next pf rh rl = MOk x <->
  check_invariants prev next = None /\ check_proof hash c prev next pf = MOk tt /\
  check_change prev next rh rl = MOk tt /\ x = (chal c prev next pf, next).
Proof.
  unfold verify_transform. destruct (check_invariants prev next).
  - split; [discriminate|intros (X & _); discriminate].
  - destruct (check_proof hash c prev next pf) as [[]|e|].
    + destruct (check_change prev next rh rl) as [[]|e|].
      * split; [intros [= <-]; auto|intros (_ & _ & _ & ->); auto].
      * split; [discriminate|intros (_ & _ & X & _); discriminate].
      * split; [discriminate|intros (_ & _ & X & _); discriminate].
    + split; [discriminate|intros (_ & X & _); discriminate].
    + split; [discriminate|intros (_ & X & _); discriminate].
Qed.

Lemma check_proof_iff c prev next pf : check_proof hash c prev next pf = MOk tt <->
  pe P (ratio0 pf) (matching pf) = pe P (ratio1 pf) (hash c (ratio0 pf) (ratio1 pf)) /\
  pe P (ratio0 pf) (delta_g2 next) = pe P (ratio1 pf) (delta_g2 prev).
Proof.
  unfold check_proof, ratio_verify, same, has_same, eval. cbn [fst snd].
  pose proof (geqb_spec _ (GT P) (pe P (ratio0 pf) (matching pf))
                (pe P (ratio1 pf) (hash c (ratio0 pf) (ratio1 pf)))) as A.
  destruct (geqb _ _).
  - pose proof (same_ratio_iff P (ratio0 pf) (ratio1 pf) (delta_g2 prev) (delta_g2 next)) as B.
    destruct (same_ratio _ _); simpl; split; auto.
    + intros _. split; [apply A|apply B]; auto.
    + discriminate.
    + intros (_ & X). apply B in X. discriminate.
  - split; [discriminate|]. intros (X & _). apply A in X. discriminate.
Qed.

(** The proof made of points at infinity says nothing. *)
Lemma default_accepted c prev next : check_proof hash c prev next (default_proof P) = MOk tt.
Proof. apply check_proof_iff. simpl. now rewrite !pe_0_l. Qed.

Lemma verify_no_panic c prev next pf rh rl : verify c prev next pf rh rl <> MPanic.
Proof.
  unfold verify_transform. destruct (check_invariants prev next) eqn:E; [discriminate|].
  apply invariants_iff in E as (A & B & _).
  unfold check_proof. destruct (ratio_verify hash pf c) as [[[r0 r1] q]|]; [|discriminate].
  destruct (negb _); [discriminate|].
  destruct (check_change prev next rh rl) eqn:X; try discriminate.
  now apply change_no_panic in X.
Qed.

Lemma prove_some c d g pf : prove hash c d g = Some pf ->
  pf = RP g (smul d g) (smul d (hash c g (smul d g))) /\ g <> g0 /\ d <> f0 /\ hash c g (smul d g) <> g0.
Proof.
  unfold prove.
  destruct (geqb g g0) eqn:A; [discriminate|].
  destruct (geqb (smul d g) g0) eqn:B; [discriminate|].
  destruct (geqb (hash c g (smul d g)) g0) eqn:C; [discriminate|].
  destruct (geqb (smul d (hash c g (smul d g))) g0) eqn:D; [discriminate|].
  intros [= <-]. repeat split; auto.
  - intros E. apply geqb_spec in E. congruence.
  - intros E. subst d. rewrite smul_0, geqb_refl in B. discriminate.
  - intros E. apply geqb_spec in E. congruence.
Qed.

Lemma prove_total c d g : g <> g0 -> d <> f0 -> hash c g (smul d g) <> g0 ->
  prove hash c d g = Some (RP g (smul d g) (smul d (hash c g (smul d g)))).
Proof.
  intros A B C. unfold prove.
  assert (forall (gr : grp K) (x : gr), x <> g0 -> geqb x g0 = false) as F.
  { intros gr x X. destruct (geqb x g0) eqn:E; auto. apply geqb_spec in E. contradiction. }
  rewrite !F; auto; intros E; apply smul_zero in E as [E|E]; auto.
Qed.

Lemma contribute_scaled c s d g s' pf : contribute hash c s d g = (s', Some pf) ->
  d <> f0 /\ prove hash c d g = Some pf /\ scaled d s s'.
Proof.
  unfold contribute. destruct (finverse d) as [di|] eqn:E; [|discriminate].
  apply finverse_some in E as [D ->]. intros [= <- ->]. split; auto. split; auto.
  constructor; simpl; auto; unfold batch_mul; rewrite map_smul_smul, finv_r, map_smul_1; auto.
Qed.
End Verify.
