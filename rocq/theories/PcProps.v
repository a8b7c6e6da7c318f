(** * Poseidon and Merkle paths as circuits: properties (C86) *)
From Coq Require Import List ZArith NArith Znumtheory Lia Bool Field_theory.
From Verif Require Import WmModel GdModel GdProps AlgBase PrBn PrField MtModel MtSpec MtLemmas MtInner PcModel PcSpec PcLemmas.
From Verif Require PxModel.
Import ListNotations.
Local Open Scope Z_scope.

Section Props.
Variable p : N.
Hypothesis p1 : (1 < p)%N.
Hypothesis P : prime (Z.of_N p).
Hypothesis p2 : (2 < p)%N.
Notation q := (Z.of_N p).
Notation K := (prime_fld p p1 P p2).

(** The circuit of the S-box computes the power, whatever the witnesses. *)
Theorem c86_power x e : elem q (value x) -> always (pow_by_constant q x e) (fun z => value z = value x ^ Z.of_N e mod q).
Proof.
  intros V. destruct (num_ex p p1 p2 (value x) V) as [a A].
  eapply always_weak; [apply (always_pow p p1 P p2 x a e); symmetry; exact A|].
  intros z Hz. unfold rep in Hz. rewrite Hz, <- A.
  replace (PxModel.fpow K a (N.to_nat e)) with (zpow p p1 a (N.to_nat e)).
  - unfold num. rewrite (zpow_val p p1 p2). f_equal. f_equal. lia.
  - generalize (N.to_nat e) as n. induction n; [reflexivity|]. cbn [zpow PxModel.fpow]. rewrite IHn. reflexivity.
Qed.

(** The circuit of the hash computes the hash: for every choice of the parameters and of the inputs
    it can be satisfied, and only with the native hash as its result. *)
Theorem c86_hash exponent width full partial (keys mds : list K) (tag : K) inputs xs :
  (0 < width)%nat -> Forall2 (@rep p) xs inputs ->
  exists h, PxModel.hash K (PxModel.power_sbox K (N.to_nat exponent)) width full partial keys mds tag inputs = Some h /\
  always (hash_var q exponent width full partial (map (@num p) keys) (map (@num p) mds) (@num p tag) xs) (fun z => @rep p z h).
Proof. intros W F. now apply always_hash. Qed.

(** So it is a circuit for the function that joins two digests. *)
Definition join_of exponent width full partial (keys mds : list K) (tag : K) (a b : zp p) : zp p :=
  match PxModel.hash K (PxModel.power_sbox K (N.to_nat exponent)) width full partial keys mds tag [a; b] with
  | Some h => h
  | None => mkz p p1 0
  end.
Theorem c86_join exponent width full partial (keys mds : list K) (tag : K) : (0 < width)%nat ->
  gadget (fun x y => hash_var q exponent width full partial (map (@num p) keys) (map (@num p) mds) (@num p tag) [x; y])
    (join_of exponent width full partial keys mds tag).
Proof.
  intros W x y a b X Y.
  destruct (c86_hash exponent width full partial keys mds tag [a; b] [x; y] W) as (h & E & A); [repeat constructor; assumption|].
  unfold join_of. rewrite E. exact A.
Qed.

(** Equality. *)
Theorem c86_equal x y : elem q (value x) -> elem q (value y) ->
  always (is_eq_var q x y) (fun b => b = if value x =? value y then 1 else 0).
Proof.
  intros X Y. destruct (num_ex p p1 p2 _ X) as [a A]. destruct (num_ex p p1 p2 _ Y) as [b B].
  eapply always_weak; [apply (always_is_eq p p1 P p2 x y a b); unfold rep; auto|].
  intros r ->. rewrite <- A, <- B. destruct (zeqb p a b) eqn:E.
  - apply zeqb_spec in E. subst. now rewrite Z.eqb_refl.
  - destruct (Z.eqb_spec (num a) (num b)) as [F|F]; auto. apply num_inj in F. apply (zeqb_spec p) in F. congruence.
Qed.

Section Path.
Variables J JL : fpvar -> fpvar -> circuit fpvar.
Variables join joinl : zp p -> zp p -> zp p.
Hypothesis GJ : gadget J join.
Hypothesis GL : gadget JL joinl.
Variable H : nat.
Hypothesis H2 : (2 <= H)%nat.

Lemma levels : (2 ^ S (H - 2) = 2 ^ (H - 1))%nat.
Proof. f_equal. lia. Qed.

(** The circuit for a path of unknown values gives 1 exactly for what is accepted by native
    verification, for some path of the right form, and 0 for what is refused. *)
Theorem c86_verify root leaf r a b : rep root r -> rep leaf a ->
  (accepted (v <- allocate_path q (H - 2) (H - 2) ;; verify_var q J JL v root leaf) b <->
   exists w, fits H w /\ b = if path_verify join joinl (zeqb p) w r a then 1 else 0).
Proof.
  intros R A. split.
  - intros (tape & rest & E). step E. apply (allocate_inv p p1 P p2) in E0. destruct E0 as (w & W & L & I).
    exists w. split; [split; [rewrite <- levels; exact I|exact L]|].
    apply (proj2 (always_verify p p1 P p2 J JL join joinl GJ GL _ _ w root leaf r a W ltac:(lia) A R)). exists t, rest. exact E.
  - intros (w & [I L] & ->). destruct (allocate_take p p1 P p2 (H - 2) w) as (v & W & E). rewrite L in E.
    destruct (always_verify p p1 P p2 J JL join joinl GJ GL _ _ w root leaf r a W ltac:(lia) A R) as [(t & b & E') S].
    assert (B : b = if path_verify join joinl (zeqb p) w r a then 1 else 0) by (apply S; exists (t ++ []), []; apply E').
    rewrite <- B. exists (known_values (H - 2) (numbers w) ++ t ++ []), []. eapply seq_intro; [apply E|apply E'].
Qed.

(** With the values that the code gives to the variables of a path that is known, and that is not too
    long, the circuit is satisfied, and agrees with native verification. *)
Theorem c86_known root leaf r a w : rep root r -> rep leaf a -> (length (p_inner w) <= H - 2)%nat ->
  let c := (v <- allocate_path q (H - 2) (length (p_inner w)) ;; verify_var q J JL v root leaf) in
  let tape t := known_values (H - 2) (numbers w) ++ t in
  (exists t b, accepts c (tape t) b) /\
  forall t b, accepts c (tape t) b -> b = if path_verify join joinl (zeqb p) w r a then 1 else 0.
Proof.
  intros R A L c tape. destruct (allocate_take p p1 P p2 (H - 2) w) as (v & W & E).
  destruct (always_verify p p1 P p2 J JL join joinl GJ GL _ _ w root leaf r a W L A R) as [(t & b & E') S]. split.
  - exists (t ++ []), b, []. eapply seq_intro; [apply E|apply E'].
  - intros t' b' (rest & X). unfold c, tape in X. step X. rewrite E in E0. injection E0 as <- <-.
    apply S. exists t', rest. exact X.
Qed.

(** The assertion is satisfied exactly when there is a path that is accepted natively. *)
Theorem c86_assert root leaf r a : rep root r -> rep leaf a ->
  (accepted (v <- allocate_path q (H - 2) (H - 2) ;; assert_valid_var q J JL v root leaf) tt <->
   exists w, fits H w /\ path_verify join joinl (zeqb p) w r a = true).
Proof.
  intros R A. pose proof (prime_ge_2 _ P) as Q2. rewrite <- (Z2N.id q) in Q2 by lia.
  assert (Ass : forall b t, assert_var q b t = Ok (tt, ((b - 1) mod q =? 0, t))) by reflexivity.
  split.
  - intros (tape & rest & E). step E. unfold assert_valid_var in E. step E. unfold assert_eq_var in E. step E.
    assert (V : accepted (v <- allocate_path q (H - 2) (H - 2) ;; verify_var q J JL v root leaf) a2).
    { exists tape, t1. eapply seq_intro; [exact E0|]. eapply seq_intro; [exact E1|exact E2]. }
    apply (c86_verify root leaf r a a2 R A) in V. destruct V as (w & F & B). exists w. split; auto.
    rewrite Ass in E. injection E as E _. apply Z.eqb_eq in E. destruct (path_verify join joinl (zeqb p) w r a); auto.
    subst a2. exfalso. change (0 - 1) with (- (1)) in E. apply Z.mod_divide in E; [|lia]. apply Z.divide_opp_r in E.
    apply Z.divide_1_r_nonneg in E; lia.
  - intros (w & F & B).
    assert (V : accepted (v <- allocate_path q (H - 2) (H - 2) ;; verify_var q J JL v root leaf) 1).
    { apply (c86_verify root leaf r a 1 R A). exists w. rewrite B. auto. }
    destruct V as (tape & rest & E). step E. unfold verify_var in E. step E. exists tape, rest.
    eapply seq_intro; [exact E0|]. eapply seq_intro; [exact E1|]. eapply seq_intro; [exact E|].
    rewrite Ass. rewrite Z.sub_diag, Z.mod_0_l by lia. reflexivity.
Qed.

(** What the assertion proves about a tree with a given list of leaves: the leaf is one of them, or
    it is the default one at a place that is free; or what was hashed breaks the hash. *)
Lemma pair_dec (x y : zp p * zp p) : {x = y} + {x <> y}.
Proof.
  assert (D : forall a b : zp p, {a = b} + {a <> b}).
  { intros a b. destruct (zeqb p a b) eqn:E; [left; now apply zeqb_spec|right]. intros F. apply (zeqb_spec p) in F. congruence. }
  decide equality.
Qed.
Lemma pair_at_half i (x y : zp p) f :
  pair_at i x y = (f (2 * (i / 2))%nat, f (2 * (i / 2) + 1)%nat) -> x = f i.
Proof.
  unfold pair_at. pose proof (Nat.div_mod i 2 ltac:(lia)) as D. pose proof (Nat.mod_upper_bound i 2 ltac:(lia)) as B.
  destruct (Nat.even i) eqn:E; intros X.
  - apply (f_equal fst) in X. unfold fst in X. rewrite X. apply f_equal. apply Nat.even_spec in E. destruct E as [e E]. assert (i mod 2 = 0)%nat by (rewrite E, Nat.mul_comm; apply Nat.mod_mul; lia). lia.
  - apply (f_equal snd) in X. unfold snd in X. rewrite X. apply f_equal. assert (O : Nat.odd i = true) by (unfold Nat.odd; now rewrite E). apply Nat.odd_spec in O. destruct O as [e O].
    assert (i mod 2 = 1)%nat by (rewrite O, Nat.add_comm, Nat.mul_comm; rewrite Nat.mod_add by lia; reflexivity). lia.
Qed.

Section Tree.
Variables (dl di : zp p) (l : list (zp p)).
Notation sd := (sd dl di join joinl l).

Lemma fold_down : forall ds k i acc,
  path_fold join i acc ds = sd (k + length ds)%nat (i / 2 / 2 ^ length ds)%nat ->
  acc = sd k (i / 2)%nat \/
  (exists x k i', In x (inner_pairs join i acc ds) /\ x <> tree_pair dl di join joinl l k i' /\
     apply_pair join x = apply_pair join (tree_pair dl di join joinl l k i')) \/
  (exists x, In x (inner_pairs join i acc ds) /\ apply_pair join x = di).
Proof.
  induction ds as [|d ds IH]; intros k i acc E; cbn [path_fold length] in E.
  - rewrite Nat.add_0_r, Nat.pow_0_r, Nat.div_1_r in E. auto.
  - replace (k + S (length ds))%nat with (S k + length ds)%nat in E by lia.
    rewrite Nat.pow_succ_r', <- Nat.div_div in E by (try lia; apply Nat.pow_nonzero; lia).
    cbn [inner_pairs]. set (j := (i / 2)%nat) in *. set (x := pair_at j acc d).
    assert (N : node_join join (parent i) acc d = apply_pair join x).
    { unfold node_join, is_left, parent, x, pair_at, apply_pair. fold j. now destruct (Nat.even j). }
    rewrite N in E. destruct (IH (S k) (parent i) _ E) as [F|[(y & k' & i' & F & G)|(y & F & G)]].
    + change (parent i / 2)%nat with (j / 2)%nat in F. clear E IH.
      destruct (Nat.lt_ge_cases ((j / 2) * 2 ^ S (S k)) (length l)) as [C|C].
      * rewrite sd_S in F by exact C.
        assert (T : tree_pair dl di join joinl l k (j / 2) = (sd k (2 * (j / 2))%nat, sd k (2 * (j / 2) + 1)%nat)).
        { unfold tree_pair. now rewrite !td_sd. }
        destruct (pair_dec x (tree_pair dl di join joinl l k (j / 2))) as [X|X].
        -- left. rewrite T in X. exact (pair_at_half j acc d (sd k) X).
        -- right. left. exists x, k, (j / 2)%nat. split; [now left|]. split; [exact X|]. rewrite F, T. reflexivity.
      * rewrite sd_empty in F by exact C. right. right. exists x. split; [now left|exact F].
    + right. left. exists y, k', i'. split; [right; exact F|exact G].
    + right. right. exists y. split; [right; exact F|exact G].
Qed.

Theorem c86_membership leaf root a : (length l <= 2 ^ (H - 1))%nat -> rep leaf a ->
  rep root (spec_root dl di join joinl H l) ->
  accepted (v <- allocate_path q (H - 2) (H - 2) ;; assert_valid_var q J JL v root leaf) tt ->
  In a l \/ (a = dl /\ (length l < 2 ^ (H - 1))%nat) \/ exists w, fits H w /\ broken dl di join joinl w a l.
Proof.
  intros Ll A R E. apply (c86_assert root leaf _ a R A) in E. destruct E as (w & Fw & V). pose proof Fw as [I L].
  unfold path_verify in V. apply zeqb_spec in V. rewrite spec_root_sd in V. unfold path_root in V.
  assert (N : node_join_leaves joinl (p_index w) a (p_sibling w) = apply_pair joinl (path_leaves w a)).
  { unfold node_join_leaves, is_left, path_leaves, pair_at, apply_pair. now destruct (Nat.even (p_index w)). }
  rewrite N in V.
  assert (F : path_fold join (p_index w) (apply_pair joinl (path_leaves w a)) (p_inner w) =
     sd (0 + length (p_inner w))%nat (p_index w / 2 / 2 ^ length (p_inner w))%nat).
  { rewrite <- V, L. cbn [Nat.add]. unfold path_length. f_equal. rewrite Nat.div_div by (try lia; apply Nat.pow_nonzero; lia).
    rewrite <- Nat.pow_succ_r', levels. symmetry. now apply Nat.div_small. }
  apply fold_down in F. destruct F as [F|[F|F]].
  - set (m := (p_index w / 2)%nat) in *. destruct (Nat.lt_ge_cases (m * 2) (length l)) as [C|C].
    + rewrite sd_0 in F by exact C. destruct (pair_dec (path_leaves w a) (tree_leaves dl l m)) as [X|X].
      * apply (pair_at_half (p_index w) a (p_sibling w) (fun i => nth i l dl)) in X.
        destruct (Nat.lt_ge_cases (p_index w) (length l)) as [B|B].
        -- left. rewrite X. now apply nth_In.
        -- right. left. rewrite nth_overflow in X by exact B. split; [exact X|lia].
      * right. right. exists w. split; [exact Fw|]. left. exists m. split; [exact X|exact F].
    + rewrite sd_empty in F by exact C. right. right. exists w. split; [exact Fw|]. right. right. left. exact F.
  - right. right. exists w. split; [exact Fw|]. right. left. exact F.
  - right. right. exists w. split; [exact Fw|]. right. right. right. exact F.
Qed.
End Tree.
End Path.
End Props.

(** ** Concrete cases, in the field with 7 elements and in that of the curve *)
Lemma two_7 : (2 < 7)%N. Proof. reflexivity. Qed.
Lemma one_7 : (1 < 7)%N. Proof. reflexivity. Qed.
Definition k7 (n : N) : zp 7 := mkz 7 one_7 n.

Example ex_c86_power : elem 7 (value (Var 5)) /\ pow_by_constant 7 (Var 5) 5 [4; 2; 3] = Ok (Var 3, (true, [])) /\
  pow_by_constant 7 (Var 5) 5 [4; 2; 4] = Ok (Var 4, (false, [])) /\ 5 ^ 5 mod 7 = 3.
Proof. repeat split; try reflexivity; cbn; lia. Qed.

(** The hash of a native element, and what the circuit does with the right and with wrong witnesses. *)
Example ex_c86_hash : (0 < 2)%nat /\ Forall2 (@rep 7) [Var 3] [k7 3] /\
  option_map (@num 7) (PxModel.hash (prime_fld 7 one_7 prime_7 two_7) (PxModel.power_sbox _ 5) 2 2 1
    (map k7 [1; 2; 3; 4; 5; 6]%N) (map k7 [2; 1; 1; 3]%N) (k7 4) [k7 3]) = Some 6 /\
  hash_var 7 5 2 2 1 [1; 2; 3; 4; 5; 6] [2; 1; 1; 3] 4 [Var 3] [4; 2; 3; 4; 2; 3; 1; 1; 6; 1; 1; 1] = Ok (Var 6, (true, [])) /\
  hash_var 7 5 2 2 1 [1; 2; 3; 4; 5; 6] [2; 1; 1; 3] 4 [Var 3] [4; 2; 3; 4; 2; 3; 1; 1; 5; 1; 1; 1] = Ok (Var 4, (false, [])).
Proof. split; [lia|]. split; [repeat constructor|]. repeat split; vm_compute; reflexivity. Qed.

(** In the field of the curve, with the exponent, width and numbers of rounds of the deployment. *)
Example ex_c86_join : (0 < 3)%nat /\ (2 < bn_fr)%N /\ prime (Z.of_N bn_fr) /\
  forall keys mds tag, gadget
    (fun x y => hash_var (Z.of_N bn_fr) 5 3 8 55 (map (@num bn_fr) keys) (map (@num bn_fr) mds) (@num bn_fr tag) [x; y])
    (join_of bn_fr bn_1 bn_prime bn_2 5 3 8 55 keys mds tag).
Proof. split; [lia|]. split; [exact bn_2|]. split; [exact bn_prime|]. intros. apply (c86_join bn_fr bn_1 bn_prime bn_2). lia. Qed.

Example ex_c86_equal : elem 7 3 /\ elem 7 4 /\ is_eq_var 7 (Var 3) (Var 4) [1; 6] = Ok (0, (true, [])) /\
  is_eq_var 7 (Var 3) (Var 4) [0; 0] = Ok (1, (false, [])) /\ is_eq_var 7 (Var 3) (Const 3) [0; 5] = Ok (1, (true, [])).
Proof. unfold elem. repeat split; try lia; reflexivity. Qed.

(** A toy hash. *)
Definition join7 (a b : zp 7) : zp 7 := k7 (proj1_sig a + proj1_sig b * 2).
Definition gadget7 (x y : fpvar) : circuit fpvar := ret (fp_add 7 x (fp_mul_const 7 y 2)).
Lemma is_gadget7 : gadget gadget7 join7.
Proof.
  intros x y a b X Y. apply always_ret. unfold rep in *. unfold join7, k7, num, mkz. cbn [proj1_sig].
  rewrite N2Z.inj_mod, N2Z.inj_add, N2Z.inj_mul. unfold num in *. rewrite <- X, <- Y.
  assert (V : value (fp_add 7 x (fp_mul_const 7 y 2)) = (value x + (value y * 2) mod 7) mod 7)
    by (destruct x, y; reflexivity).
  rewrite V. apply Z.add_mod_idemp_r. lia.
Qed.
Definition path7 : path (zp 7) (zp 7) := Path 1 (k7 5) [k7 2].
Definition run7 (levels digests : nat) root leaf := v <- allocate_path 7 levels digests ;; verify_var 7 gadget7 gadget7 v root leaf.

Example ex_c86_verify : (2 <= 3)%nat /\ fits 3 path7 /\ path_verify join7 join7 (zeqb 7) path7 (k7 1) (k7 3) = true /\
  run7 1 1 (Var 1) (Var 3) [5; 1; 0; 2; 5; 3; 4; 2; 0; 0] = Ok (1, (true, [])) /\
  run7 1 1 (Var 2) (Var 3) [5; 1; 0; 2; 5; 3; 4; 2; 1; 1] = Ok (0, (true, [])) /\
  run7 1 1 (Var 2) (Var 3) [5; 1; 0; 2; 5; 3; 4; 2; 0; 0] = Ok (1, (false, [])).
Proof. unfold fits. cbn [p_index p_inner path7 length]. repeat split; try lia; vm_compute; try lia; reflexivity. Qed.

Example ex_c86_known : (length (p_inner path7) <= 3 - 2)%nat /\ known_values 1 (numbers path7) = [5; 1; 0; 2] /\
  accepts (run7 1 1 (Var 1) (Var 3)) (known_values 1 (numbers path7) ++ [5; 3; 4; 2; 0; 0]) 1.
Proof. split; [cbn; lia|]. split; [vm_compute; reflexivity|]. exists []. vm_compute. reflexivity. Qed.

Definition check7 root leaf := v <- allocate_path 7 1 1 ;; assert_valid_var 7 gadget7 gadget7 v root leaf.
Example ex_c86_assert : accepted (check7 (Var 1) (Var 3)) tt /\
  check7 (Var 2) (Var 3) [5; 1; 0; 2; 5; 3; 4; 2; 1; 1] = Ok (tt, (false, [])).
Proof. split; [exists [5; 1; 0; 2; 5; 3; 4; 2; 0; 0], []|]; vm_compute; reflexivity. Qed.

(** Two leaves; the first is accepted, and something that is no leaf too, since the toy hash is broken. *)
Example ex_c86_membership : let l := [k7 3; k7 5] in
  (length l <= 2 ^ (3 - 1))%nat /\ num (spec_root (k7 0) (k7 0) join7 join7 3 l) = 6 /\
  accepted (check7 (Var 6) (Var 3)) tt /\ In (k7 3) l /\
  accepted (check7 (Var 6) (Var 1)) tt /\ ~ In (k7 1) l /\
  broken (k7 0) (k7 0) join7 join7 (Path 0 (k7 6) [k7 0]) (k7 1) l.
Proof.
  cbv zeta. split; [cbn; lia|]. split; [vm_compute; reflexivity|].
  split; [exists [5; 0; 0; 0; 3; 5; 6; 0; 0; 0], []; vm_compute; reflexivity|]. split; [now left|].
  split; [exists [6; 0; 0; 0; 1; 6; 6; 0; 0; 0], []; vm_compute; reflexivity|].
  split; [intros [X|[X|[]]]; apply (f_equal (@num 7)) in X; vm_compute in X; discriminate|].
  left. exists 0%nat. split; [intros X; apply (f_equal fst), (f_equal (@num 7)) in X; vm_compute in X; discriminate|].
  apply zp_eq. vm_compute. reflexivity.
Qed.

(** [c86_known] needs its bound: of a native path with more digests than the tree has levels the circuit
    ignores those that are too many, since the iterators are zipped, and native verification does not. *)
Theorem c86_length_refuted : exists (w : path (zp 7) (zp 7)) r a t,
  path_verify join7 join7 (zeqb 7) w r a = true /\
  accepts (run7 1 (length (p_inner w)) (Var (num r)) (Var (num a))) (known_values 1 (numbers w) ++ t) 0.
Proof.
  exists (Path 1 (k7 5) [k7 2; k7 3]), (k7 0), (k7 3), [5; 3; 4; 2; 1; 6]. split; [vm_compute; reflexivity|].
  exists []. vm_compute. reflexivity.
Qed.

Print Assumptions c86_power.
Print Assumptions c86_hash.
Print Assumptions c86_join.
Print Assumptions c86_equal.
Print Assumptions c86_verify.
Print Assumptions c86_known.
Print Assumptions c86_assert.
Print Assumptions c86_membership.
Print Assumptions c86_length_refuted.
