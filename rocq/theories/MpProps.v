(** Properties C61, C62 and C63: contributions to the second phase of the trusted setup. *)
From Coq Require Import List Arith NArith Bool Lia Field_theory Ring.
From Verif Require Import AlgBase MpModel MpSpec MpLemmas.
Import ListNotations.

Section Props.
Variable P : pairing.
Context {CH : Type}.
Variable hash : CH -> G1 P -> G1 P -> G2 P.
Variable chal : CH -> state P -> state P -> ratio_proof P -> CH.
Notation K := (sc P).
Notation verify := (verify_transform hash chal).
Notation stepwise := (verify_stepwise hash chal).
Notation batch := (verify_transform_all hash chal).
Add Ring Kr3 : (F_R (fth (sc P))).
Implicit Types s prev next : state P.

(** * C61: a contribution multiplies the secret and changes nothing else *)

(** What an honest contributor sends is accepted, whatever the verifier draws. *)
Theorem c61_honest c s d g s' pf : contribute hash c s d g = (s', Some pf) ->
  scaled d s s' /\ forall rh rl, verify c s s' pf rh rl = MOk (chal c s s' pf, s').
Proof.
  intros E. apply contribute_scaled in E as (D & PR & SC). split; auto.
  intros rh rl. apply verify_iff. split; [eapply scaled_invariants; eauto|].
  split; [|split; [eapply scaled_change; eauto|auto]].
  apply prove_some in PR as (-> & _). apply check_proof_iff. simpl.
  rewrite (sc_d2 _ _ _ _ SC). rewrite !pe_smul_r, !pe_smul_l. auto.
Qed.

(** A contribution fails only when the drawn scalar or point is zero, or the hash is. *)
Theorem c61_honest_total c s d g : d <> f0 -> g <> g0 -> hash c g (smul d g) <> g0 ->
  exists s' pf, contribute hash c s d g = (s', Some pf).
Proof.
  intros D G0 Hn. unfold contribute. rewrite finverse_nz, prove_total by auto. eauto.
Qed.

(** The verifier was lucky for the contributor: at one index of one query, every other
    draw is rejected, whatever is drawn for the rest of the other query. *)
Definition lucky c prev next pf (rh rl : nat -> K) : Prop :=
  (exists i, i < length (h_query prev) /\
     forall v rl', v <> rh i -> forall x, verify c prev next pf (upd rh i v) rl' <> MOk x) \/
  (exists i, i < length (l_query prev) /\
     forall v rh', v <> rl i -> forall x, verify c prev next pf rh' (upd rl i v) <> MOk x).

(** What is accepted is a multiplication of the secret, but for one draw out of as many
    as there are scalars. *)
Theorem c61_sound c prev next pf rh rl x : delta_g2 prev <> g0 ->
  verify c prev next pf rh rl = MOk x ->
  x = (chal c prev next pf, next) /\
  ((exists r, scaled r prev next) \/ lucky c prev next pf rh rl).
Proof.
  intros D V. pose proof V as V0. apply verify_iff in V as (I & _ & C & ->). split; auto.
  apply invariants_iff in I as (LH & LL & A & B1 & B2 & AL & BE1 & BE2 & GA & AB).
  destruct (cyc2 P _ (delta_g2 next) D) as [r R].
  pose proof (change_iff P r prev next rh rl D R LH LL) as CI. apply CI in C as (D1 & H & L).
  assert (forall (a b : list (G1 P)), {a = b} + {a <> b}) as LD by (intros; apply list_eq_dec, geq_dec).
  assert (length (map (fun y => smul r y) (h_query next)) = length (h_query prev)) as LH'
    by now rewrite map_length.
  assert (length (map (fun y => smul r y) (l_query next)) = length (l_query prev)) as LL'
    by now rewrite map_length.
  destruct (LD (map (fun y => smul r y) (h_query next)) (h_query prev)) as [EH|NH].
  - destruct (LD (map (fun y => smul r y) (l_query next)) (l_query prev)) as [EL|NL].
    + left. exists r. constructor; auto.
    + right. right. apply lists_differ in NL as (i & y & z & Y & Z & YZ); auto.
      exists i. split; [apply nth_error_Some; congruence|].
      intros v rh' NV w V. apply verify_iff in V as (_ & _ & C & _).
      apply (change_iff P r prev next rh' (upd rl i v) D R LH LL) in C as (_ & _ & L').
      apply YZ. eapply (lin_once P (G1 P)); eauto.
  - right. left. apply lists_differ in NH as (i & y & z & Y & Z & YZ); auto.
    exists i. split; [apply nth_error_Some; congruence|].
    intros v rl' NV w V. apply verify_iff in V as (_ & _ & C & _).
    apply (change_iff P r prev next (upd rh i v) rl' D R LH LL) in C as (_ & H' & _).
    apply YZ. eapply (lin_once P (G1 P)); eauto.
Qed.

(** A right contribution is never a lucky one. *)
Theorem c61_not_lucky r c prev next pf rh rl x : scaled r prev next ->
  verify c prev next pf rh rl = MOk x -> ~ lucky c prev next pf rh rl.
Proof.
  intros SC V. apply verify_iff in V as (I & CP & _ & _).
  assert (forall a b, verify c prev next pf a b = MOk (chal c prev next pf, next)) as ALL.
  { intros a b. apply verify_iff. repeat split; auto. eapply scaled_change; eauto. }
  assert (forall a : K, (a + f1)%A <> a) as NE.
  { intros a E. apply (f1_nz K). transitivity (a + f1 - a)%A; [ring|]. rewrite E. ring. }
  intros [(i & _ & X)|(i & _ & X)].
  - eapply X; [apply (NE (rh i))|apply (ALL _ rl)].
  - eapply X; [apply (NE (rl i))|apply (ALL rh _)].
Qed.

(** The check does not panic. *)
Theorem c61_never_panics c prev next pf rh rl : verify c prev next pf rh rl <> MPanic.
Proof. apply verify_no_panic. Qed.

(** Some accepted contribution of the chain was a lucky one. *)
Fixpoint some_lucky c s (l : list ((state P * ratio_proof P) * ((nat -> K) * (nat -> K)))) : Prop :=
  match l with
  | [] => False
  | ((next, pf), (rh, rl)) :: l => lucky c s next pf rh rl \/ some_lucky (chal c s next pf) next l
  end.

(** After any number of accepted contributions the key is the initial one with the secret
    multiplied, and remains usable. *)
Theorem c61_chain l : forall c s c' s', live s -> stepwise c s l = MOk (c', s') ->
  (exists r, r <> f0 /\ scaled r s s' /\ live s') \/ some_lucky c s l.
Proof.
  induction l as [|[[next pf] [rh rl]] l IH]; intros c s c' s' L E; simpl in E.
  - injection E as -> ->. left. exists f1. auto using f1_nz, scaled_refl.
  - destruct (verify c s next pf rh rl) as [[c1 s1]|e|] eqn:V; try discriminate.
    apply c61_sound in V as ([= -> ->] & [(r & SC)|LU]); [|right; left; auto|apply L].
    destruct (scaled_live P r s next L SC) as [R L1].
    apply IH in E as [(r' & R' & SC' & L')|X]; auto.
    + left. exists (r' * r)%A. split; [apply fmul_nz; auto|]. split; auto. eapply scaled_trans; eauto.
    + right. right. auto.
Qed.

(** * C62: contributors show that they know their factor *)

(** When the points of the proof and the hash are not at infinity, the factor of the state
    is the factor between the points of the proof, which its author also applied to the
    hash of the challenge. Nothing else is claimed about what the author knows: that is
    the assumption behind the ratio proof. *)
Theorem c62_bound_partial c prev next pf rh rl x : delta_g2 prev <> g0 ->
  verify c prev next pf rh rl = MOk x ->
  ratio0 pf <> g0 ->
  exists r, ratio1 pf = smul r (ratio0 pf) /\ delta_g2 next = smul r (delta_g2 prev) /\
    matching pf = smul r (hash c (ratio0 pf) (ratio1 pf)).
Proof.
  intros D V R0. apply verify_iff in V as (_ & CP & _ & _). apply check_proof_iff in CP as (A & B).
  destruct (cyc1 P _ (ratio1 pf) R0) as [r R]. exists r. split; auto.
  rewrite R in A at 1. rewrite R in B. rewrite pe_smul_l, <- pe_smul_r in A. rewrite pe_smul_l, <- pe_smul_r in B.
  split; eapply pe_inj_r; eauto.
Qed.

(** A proof of points at infinity is accepted with every right change of the state. *)
Theorem c62_empty_proof r c prev next rh rl : scaled r prev next ->
  verify c prev next (default_proof P) rh rl = MOk (chal c prev next (default_proof P), next).
Proof.
  intros SC. apply verify_iff. split; [eapply scaled_invariants; eauto|].
  split; [apply default_accepted|]. split; [eapply scaled_change; eauto|auto].
Qed.

(** After any chain of right contributions, the state in which the chain began is accepted
    as the next contribution: it needs no secret of anyone. *)
Theorem c62_erase l c s c' s' rh rl : live s -> stepwise c s l = MOk (c', s') -> ~ some_lucky c s l ->
  verify c' s' s (default_proof P) rh rl = MOk (chal c' s' s (default_proof P), s).
Proof.
  intros L E NL. apply c61_chain in E as [(r & R & SC & _)|X]; auto; [|contradiction].
  apply (c62_empty_proof (finv r)). now apply scaled_sym.
Qed.

(** * C63: checking a chain at once *)

Lemma stepwise_proofs l : forall c s c' s', stepwise c s l = MOk (c', s') ->
  proofs_all hash chal c s (map fst l) = MOk s'.
Proof.
  induction l as [|[[next pf] [rh rl]] l IH]; intros c s c' s' E; simpl in *.
  - congruence.
  - destruct (verify c s next pf rh rl) as [[c1 s1]|e|] eqn:V; try discriminate.
    apply verify_iff in V as (_ & CP & _ & [= -> ->]). rewrite CP. eapply IH; eauto.
Qed.

(** A chain whose contributions are accepted one by one is accepted as a whole. *)
Theorem c63_complete l c s c' s' : live s -> stepwise c s l = MOk (c', s') -> ~ some_lucky c s l ->
  forall rh rl, batch c s (map fst l) rh rl = MOk tt.
Proof.
  intros L E NL rh rl. unfold verify_transform_all. rewrite (stepwise_proofs l c s c' s' E).
  apply c61_chain in E as [(r & R & SC & _)|X]; auto; [|contradiction].
  rewrite (scaled_invariants P r s s' SC). eapply scaled_change; eauto.
Qed.

(** The last state of a chain: the initial one when there is no contribution. *)
Definition last_state s (l : list (state P * ratio_proof P)) : state P := last (map fst l) s.

Lemma proofs_last l : forall c s s', proofs_all hash chal c s l = MOk s' -> s' = last_state s l.
Proof.
  induction l as [|[next pf] l IH]; intros c s s' E.
  - now injection E as ->.
  - simpl in E. destruct (check_proof hash c s next pf) as [[]| |]; try discriminate.
    apply IH in E. rewrite E. unfold last_state. simpl. destruct l as [|[n2 p2] l]; auto.
    simpl map. clear. revert n2. induction (map fst l) as [|z zs IHz]; intros; simpl; auto.
    simpl in IHz. apply IHz.
Qed.

(** What is accepted as a whole ends in a multiplication of the secret, but for one draw
    out of as many as there are scalars. *)
Theorem c63_sound l c s rh rl : delta_g2 s <> g0 -> batch c s l rh rl = MOk tt ->
  (exists r, scaled r s (last_state s l)) \/
  (exists i, i < length (h_query s) /\ forall v rl', v <> rh i -> batch c s l (upd rh i v) rl' <> MOk tt) \/
  (exists i, i < length (l_query s) /\ forall v rh', v <> rl i -> batch c s l rh' (upd rl i v) <> MOk tt).
Proof.
  unfold verify_transform_all. destruct (proofs_all hash chal c s l) as [s'| |] eqn:E; try discriminate.
  apply proofs_last in E. subst s'. remember (last_state s l) as next eqn:Nx. intros D V.
  destruct (check_invariants s next) eqn:I; [discriminate|].
  (* the change is checked as in one step with a proof that is always accepted *)
  assert (verify c s next (default_proof P) rh rl = MOk (chal c s next (default_proof P), next)) as V'.
  { apply verify_iff. repeat split; auto. apply default_accepted. }
  assert (forall rh rl, check_change s next rh rl = MOk tt ->
            exists x, verify c s next (default_proof P) rh rl = MOk x) as CV.
  { intros a b X. eexists. apply verify_iff. repeat split; eauto. apply default_accepted. }
  apply c61_sound in V' as (_ & [SC|[(i & Hi & X)|(i & Hi & X)]]); auto.
  - right. left. exists i. split; auto. intros v rl' NV Y. apply CV in Y as [x Y]. eapply X; eauto.
  - right. right. exists i. split; auto. intros v rh' NV Y. apply CV in Y as [x Y]. eapply X; eauto.
Qed.
End Props.

(** * Examples over the field with seventeen elements *)
Definition xhash (c : N) (x y : G1 P17) : G2 P17 := z17 (1 + c mod 16).
Definition xchal (c : N) (_ _ : state P17) (_ : ratio_proof P17) : N := (c + 1)%N.
Definition p1 (n : N) : G1 P17 := z17 n.
Definition k17 (n : N) : sc P17 := z17 n.
Definition p2 (n : N) : G2 P17 := z17 n.
(** As [initialize] leaves it: delta is the generator. *)
Definition xinit : state P17 :=
  St (p1 5) (p2 6) (p2 1) (p2 1) [p1 3; p1 4] (p1 6) (p1 1) [p1 2; p1 9] [p1 7; p1 8] [p2 7; p2 8]
     [p1 11; p1 12; p1 13] [p1 14; p1 15].
Definition xrho (n : nat) : sc P17 := k17 (N.of_nat n + 2).
Definition xstep1 := contribute xhash 0%N xinit (k17 3) (p1 5).
Definition xs1 := fst xstep1.
Definition xstep2 := contribute xhash 1%N xs1 (k17 7) (p1 2).
Definition xs2 := fst xstep2.
Definition xpf (r : state P17 * option (ratio_proof P17)) := match snd r with Some pf => pf | None => default_proof P17 end.
Definition xchain := [((xs1, xpf xstep1), (xrho, xrho)); ((xs2, xpf xstep2), (xrho, xrho))].

(** Results compared by computation, without the records of the instance. *)
Definition h_rejected {A} (r : mres A) : bool := match r with MErr InconsistentHChange => true | _ => false end.
Definition accepted {A} (r : mres A) : bool := match r with MOk _ => true | _ => false end.

Lemma accepted_ok {A} (r : mres A) : accepted r = true -> exists x, r = MOk x.
Proof. destruct r; try discriminate. eauto. Qed.

Lemma h_rejected_err {A} (r : mres A) : h_rejected r = true -> r = MErr InconsistentHChange.
Proof. destruct r as [|[]|]; try discriminate. auto. Qed.

Lemma nz17 (x y : F17) : feqb x y = false -> x <> y.
Proof. apply feqb_false. Qed.

Lemma xmade1 : contribute xhash 0%N xinit (k17 3) (p1 5) = (xs1, Some (xpf xstep1)).
Proof.
  unfold xpf, xs1, xstep1.
  destruct (c61_honest_total P17 xhash 0%N xinit (k17 3) (p1 5)) as (s & pf & ->); auto; apply nz17; vm_compute; reflexivity.
Qed.

Lemma xmade2 : contribute xhash 1%N xs1 (k17 7) (p1 2) = (xs2, Some (xpf xstep2)).
Proof.
  unfold xpf, xs2, xstep2.
  destruct (c61_honest_total P17 xhash 1%N xs1 (k17 7) (p1 2)) as (s & pf & ->); auto; apply nz17; vm_compute; reflexivity.
Qed.

Lemma xscaled : scaled (k17 3) xinit xs1 /\ scaled (k17 7) xs1 xs2.
Proof.
  split.
  - exact (proj1 (c61_honest P17 xhash xchal _ _ _ _ _ _ xmade1)).
  - exact (proj1 (c61_honest P17 xhash xchal _ _ _ _ _ _ xmade2)).
Qed.

Lemma xverified : verify_transform xhash xchal 0%N xinit xs1 (xpf xstep1) xrho xrho = MOk (1%N, xs1) /\
  verify_transform xhash xchal 1%N xs1 xs2 (xpf xstep2) xrho xrho = MOk (2%N, xs2).
Proof.
  split.
  - exact (proj2 (c61_honest P17 xhash xchal _ _ _ _ _ _ xmade1) xrho xrho).
  - exact (proj2 (c61_honest P17 xhash xchal _ _ _ _ _ _ xmade2) xrho xrho).
Qed.

Lemma xinit_live : live xinit.
Proof.
  split.
  - apply nz17. vm_compute. reflexivity.
  - exists (p1 11). split; [left; auto|]. apply nz17. vm_compute. reflexivity.
Qed.

(** Two contributions, of factors three and seven, are made and accepted; delta is
    twenty-one. *)
Example c61_example :
  contribute xhash 0%N xinit (k17 3) (p1 5) = (xs1, Some (xpf xstep1)) /\
  contribute xhash 1%N xs1 (k17 7) (p1 2) = (xs2, Some (xpf xstep2)) /\
  verify_stepwise xhash xchal 0%N xinit xchain = MOk (2%N, xs2) /\
  delta_g2 xs2 = p2 21 /\ live xinit.
Proof.
  split; [exact xmade1|]. split; [exact xmade2|]. destruct xverified as [A B].
  split; [|split; [apply (proj1 (feqb_spec F17 _ _)); vm_compute; reflexivity|apply xinit_live]].
  unfold xchain. cbn [verify_stepwise]. rewrite A, B. reflexivity.
Qed.

(** The chain has no lucky contribution: the hypotheses of the theorems on chains hold. *)
Example c62_not_lucky : live xinit /\ ~ some_lucky P17 xhash xchal 0%N xinit xchain.
Proof.
  split; [apply xinit_live|]. destruct xscaled as [A B]. destruct xverified as [VA VB].
  intros [X|[X|[]]].
  - exact (c61_not_lucky P17 xhash xchal _ _ _ _ _ _ _ _ A VA X).
  - exact (c61_not_lucky P17 xhash xchal _ _ _ _ _ _ _ _ B VB X).
Qed.

(** A wrong contribution is rejected: one point of [h_query] not divided. *)
Definition xbad : state P17 :=
  set_changed xs1 (delta_g1 xs1) (delta_g2 xs1) (p1 11 :: tl (h_query xs1)) (l_query xs1).
Example c61_wrong_rejected :
  verify_transform xhash xchal 0%N xinit xbad (xpf xstep1) xrho xrho = MErr InconsistentHChange.
Proof. apply h_rejected_err. vm_compute. reflexivity. Qed.

(** A lucky draw: the scalar of the changed point is zero. *)
Example c61_lucky_possible :
  exists x, verify_transform xhash xchal 0%N xinit xbad (xpf xstep1) (upd xrho 0 (k17 0)) xrho = MOk x.
Proof. apply accepted_ok. vm_compute. reflexivity. Qed.

(** The hypotheses of the bound hold for the first contribution. *)
Example c62_bound_example :
  (exists x, verify_transform xhash xchal 0%N xinit xs1 (xpf xstep1) xrho xrho = MOk x) /\
  ratio0 (xpf xstep1) <> g0.
Proof.
  split; [apply accepted_ok; vm_compute; reflexivity|]. apply nz17. vm_compute. reflexivity.
Qed.

(** The claim fails: after two honest contributions, whose product is not one, a third
    participant who knows neither factor puts back the initial key, with a proof made of
    points at infinity, and every verifier accepts. *)
Theorem c62_knowledge_refuted :
  exists (s0 s1 s2 : state P17) pf1 pf2,
    contribute xhash 0%N s0 (k17 3) (p1 5) = (s1, Some pf1) /\
    contribute xhash 1%N s1 (k17 7) (p1 2) = (s2, Some pf2) /\
    delta_g2 s2 <> delta_g2 s0 /\
    (forall rh rl, verify_transform xhash xchal 2%N s2 s0 (RP g0 g0 g0) rh rl = MOk (3%N, s0)).
Proof.
  exists xinit, xs1, xs2, (xpf xstep1), (xpf xstep2).
  split; [exact xmade1|]. split; [exact xmade2|].
  split; [apply nz17; vm_compute; reflexivity|].
  intros rh rl. destruct xscaled as [A B].
  assert (scaled (fmul (k17 7) (k17 3)) xinit xs2) as C by (eapply (scaled_trans P17); eauto).
  apply scaled_sym in C; [|apply nz17; vm_compute; reflexivity].
  exact (c62_empty_proof P17 xhash xchal _ 2%N xs2 xinit rh rl C).
Qed.

(** The two ways to check a chain do not agree: with a point of [h_query] wrong in the first
    state and right in the second, the check at once accepts and the check one by one
    rejects whenever the scalar drawn for that point is not zero. *)
Theorem c63_agree_refuted :
  exists (s0 s1 s2 : state P17) pf1 pf2,
    (forall rh rl, verify_transform_all xhash xchal 0%N s0 [(s1, pf1); (s2, pf2)] rh rl = MOk tt) /\
    (forall rh rl, rh 0 <> f0 -> verify_transform xhash xchal 0%N s0 s1 pf1 rh rl = MErr InconsistentHChange).
Proof.
  exists xinit, xbad, xs2, (xpf xstep1), (xpf xstep2). destruct xscaled as [A B].
  assert (scaled (fmul (k17 7) (k17 3)) xinit xs2) as C by (eapply (scaled_trans P17); eauto).
  destruct xverified as [VA VB]. apply verify_iff in VA as (IA & PA & _). apply verify_iff in VB as (IB & PB & _).
  assert (check_proof xhash 0%N xinit xbad (xpf xstep1) = MOk tt) as PA' by exact PA.
  assert (check_proof xhash 1%N xbad xs2 (xpf xstep2) = MOk tt) as PB' by exact PB.
  split.
  - intros rh rl. unfold verify_transform_all. cbn [proofs_all]. rewrite PA'.
    change (xchal 0%N xinit xbad (xpf xstep1)) with 1%N. rewrite PB'.
    rewrite (scaled_invariants P17 _ _ _ C). eapply (scaled_change P17); eauto.
  - intros rh rl NZ. unfold verify_transform.
    assert (check_invariants xinit xbad = None) as ->.
    { apply invariants_iff in IA as (L1 & L2 & R). apply invariants_iff. split; [reflexivity|]. split; auto. }
    rewrite PA'. unfold check_change.
    assert (delta_g2 xbad = smul (k17 3) (delta_g2 xinit)) as D by (apply (proj1 (feqb_spec F17 _ _)); vm_compute; reflexivity).
    assert (delta_g2 xinit <> g0) as DN by (apply nz17; vm_compute; reflexivity).
    rewrite D.
    assert (same_ratio (delta_g1 xinit, delta_g1 xbad) (delta_g2 xinit, smul (k17 3) (delta_g2 xinit)) = true) as ->.
    { apply (same_ratio_r P17); [exact DN|]. apply (proj1 (feqb_spec F17 _ _)). vm_compute. reflexivity. }
    cbn [negb]. rewrite !merge_lin by reflexivity.
    match goal with |- context [negb ?b] => destruct b eqn:E end; [exfalso|reflexivity].
    apply same_ratio_r in E; auto. rewrite <- lin_smul in E.
    assert (map (fun x => smul (k17 3) x) (h_query xbad) = [p1 33; p1 12; p1 13]) as M.
    { apply (pts_eqb_spec P17 (G1 P17)). vm_compute. reflexivity. }
    rewrite M in E. change (h_query xinit) with [p1 11; p1 12; p1 13] in E.
    cbn [lin] in E. apply (gadd_cancel (sc P17) (G1 P17)) in E.
    assert (p1 33 = p1 11) as F by exact (smul_inj_r (sc P17) (G1 P17) _ _ _ NZ E).
    revert F. apply nz17. vm_compute. reflexivity.
Qed.

Print Assumptions c61_honest.
Print Assumptions c61_honest_total.
Print Assumptions c61_sound.
Print Assumptions c61_not_lucky.
Print Assumptions c61_never_panics.
Print Assumptions c61_chain.
Print Assumptions c62_bound_partial.
Print Assumptions c62_empty_proof.
Print Assumptions c62_erase.
Print Assumptions c63_complete.
Print Assumptions c63_sound.
Print Assumptions c62_knowledge_refuted.
Print Assumptions c63_agree_refuted.
