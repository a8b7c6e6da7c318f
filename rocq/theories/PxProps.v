(** C66 to C71: the linear algebra of Poseidon and its permutation. *)
From Coq Require Import List Arith Bool Lia NArith.
From Verif Require Import AlgBase PxModel PxSpec PxInv PxLin PxMds PxCauchy PxOpt.
Import ListNotations.

(** Small matrices over the field with seventeen elements. *)
Definition v17 (l : list N) : list F17 := map z17 l.
Definition m17 (l : list (list N)) : list (list F17) := map v17 l.
Definition is_val {A} (r : po A) : bool := match r with Val _ => true | _ => false end.
Definition is_non {A} (r : po A) : bool := match r with Non => true | _ => false end.
Definition is_pan {A} (r : po A) : bool := match r with Pan => true | _ => false end.
Lemma is_val_ex {A} (r : po A) : is_val r = true -> exists a, r = Val a.
Proof. destruct r; simpl; try discriminate; eauto. Qed.
Lemma is_non_eq {A} (r : po A) : is_non r = true -> r = Non.
Proof. destruct r; simpl; try discriminate; eauto. Qed.
Lemma is_pan_eq {A} (r : po A) : is_pan r = true -> r = Pan.
Proof. destruct r; simpl; try discriminate; eauto. Qed.
Definition sqb (n : nat) (m : list (list F17)) : bool :=
  Nat.eqb (length m) n && forallb (fun r => Nat.eqb (length r) n) m.
Lemma sqb_sq n m : sqb n m = true -> sq n m.
Proof.
  unfold sqb, sq. rewrite andb_true_iff, forallb_forall, Nat.eqb_eq, Forall_forall.
  intros [A B]. split; auto. intros r Hr. now apply Nat.eqb_eq, B.
Qed.

Definition a3 := m17 [[0; 1; 2]; [3; 4; 5]; [6; 7; 9]]%N.
Definition b3 := m17 [[1; 2; 3]; [2; 4; 6]; [1; 0; 1]]%N.

Section C66.
Variable K : fld.

(** C66: an inverse that is returned is a two-sided inverse. *)
Theorem c66_correct n (m w : list (list K)) : 1 <= n -> sq n m -> inverse K m = Val w ->
  sq n w /\ mul_is_id n m w /\ mul_is_id n w m.
Proof. apply inverse_val. Qed.

(** C66: no inverse is returned only when the matrix sends a vector that is not zero to
    zero, and then it has an inverse on neither side. *)
Theorem c66_none n (m : list (list K)) : 1 <= n -> sq n m -> inverse K m = Non ->
  singular n m /\ forall w, sq n w -> ~ mul_is_id n w m /\ ~ mul_is_id n m w.
Proof.
  intros Hn Q E. split; [now apply inverse_non|]. now apply inverse_non_none.
Qed.

(** C66: when the matrix has an inverse on one side, that inverse is returned. *)
Theorem c66_complete n (m v : list (list K)) : 1 <= n -> sq n m -> sq n v ->
  mul_is_id n v m \/ mul_is_id n m v ->
  exists w, inverse K m = Val w /\ forall i j, i < n -> j < n -> ent w i j = ent v i j.
Proof.
  intros Hn Q Qv H.
  assert (mul_is_id n v m) as L by (destruct H; auto; now apply right_is_left).
  destruct (nonsing_inverse K n m Hn Q (left_inverse_nonsing K n m v L)) as (w & E).
  exists w. split; auto. intros i j Hi Hj. symmetry.
  destruct (inverse_val K n m w Hn Q E) as (_ & A & _). eapply id_unique; eauto.
Qed.

(** C66: on a matrix with a row there is no panic. *)
Theorem c66_no_panic n (m : list (list K)) : 1 <= n -> sq n m -> inverse K m <> Pan.
Proof. apply inverse_total. Qed.

(** The empty matrix is the exception: [size - 1] is below zero. *)
Theorem c66_empty_panics : inverse K [] = Pan.
Proof. reflexivity. Qed.
End C66.

Example c66_example :
  sq 3 a3 /\ (exists w, inverse F17 a3 = Val w) /\ sq 3 b3 /\ inverse F17 b3 = Non.
Proof.
  split; [apply sqb_sq; vm_compute; reflexivity|]. split; [apply is_val_ex; vm_compute; reflexivity|].
  split; [apply sqb_sq; vm_compute; reflexivity|]. apply is_non_eq. vm_compute. reflexivity.
Qed.

(** * C67 *)
Section C67.
Variable K : fld.

(** C67: for square matrices of one size there is a product, and it is the product. *)
Theorem c67_square_partial n (a b : list (list K)) : 1 <= n -> sq n a -> sq n b ->
  exists c, matmul K a b = Val c /\ sq n c /\ forall i j, i < n -> j < n -> ent c i j = prod_ent n a b i j.
Proof. apply matmul_ok. Qed.

Theorem c67_col_partial n (m : list (list K)) v : sq n m -> length v = n ->
  exists u, mul_col_vec K m v = Val u /\ length u = n /\ forall i, i < n -> nth i u f0 = app n m (fun k => nth k v f0) i.
Proof. apply mul_col_ok. Qed.

Theorem c67_row_partial n (m : list (list K)) v : sq n m -> length v = n ->
  exists u, mul_row_vec_at_left K m v = Val u /\ length u = n /\ forall j, j < n -> nth j u f0 = rowmul n m (fun k => nth k v f0) j.
Proof. apply mul_row_ok. Qed.

(** C67: with other shapes the product is right when the outer dimensions agree. *)
Theorem c67_outer_partial p q (a b : list (list K)) : 1 <= q -> shape p q a -> shape q p b ->
  exists c, matmul K a b = Val c /\ shape p p c /\ forall i j, i < p -> j < p -> ent c i j = prod_ent q a b i j.
Proof. intros. now apply (matmul_shape K p q p q). Qed.
End C67.

Example c67_example : sq 3 a3 /\ sq 3 b3 /\ length (v17 [1; 2; 3]%N) = 3 /\ 
  shape 2 3 (m17 [[1; 2; 3]; [4; 5; 6]]%N) /\ shape 3 2 (m17 [[1; 2]; [3; 4]; [5; 6]]%N).
Proof.
  split; [apply sqb_sq; vm_compute; reflexivity|]. split; [apply sqb_sq; vm_compute; reflexivity|].
  split; [reflexivity|]. split; split; auto; repeat constructor.
Qed.

(** C67: a product that exists is refused, and one that does not exist is returned. *)
Theorem c67_matmul_refuted :
  exists a b a' b' c : list (list F17),
    shape 2 3 a /\ shape 3 1 b /\ matmul F17 a b = Non /\
    shape 2 2 a' /\ shape 3 2 b' /\ matmul F17 a' b' = Val c.
Proof.
  exists (m17 [[1; 2; 3]; [4; 5; 6]]%N), (m17 [[1]; [2]; [3]]%N), (m17 [[1; 2]; [4; 5]]%N), (m17 [[1; 2]; [3; 4]; [5; 6]]%N).
  destruct (is_val_ex (matmul F17 (m17 [[1; 2]; [4; 5]]%N) (m17 [[1; 2]; [3; 4]; [5; 6]]%N))) as (c & E); [vm_compute; reflexivity|].
  exists c. split; [split; auto; repeat constructor|]. split; [split; auto; repeat constructor|].
  split; [apply is_non_eq; vm_compute; reflexivity|]. split; [split; auto; repeat constructor|].
  split; [split; auto; repeat constructor|]. exact E.
Qed.

Theorem c67_col_refuted :
  exists (m : list (list F17)) v v' u,
    shape 2 3 m /\ length v = 3 /\ mul_col_vec F17 m v = Non /\ length v' = 2 /\ mul_col_vec F17 m v' = Val u.
Proof.
  exists (m17 [[1; 2; 3]; [4; 5; 6]]%N), (v17 [1; 2; 3]%N), (v17 [1; 2]%N).
  destruct (is_val_ex (mul_col_vec F17 (m17 [[1; 2; 3]; [4; 5; 6]]%N) (v17 [1; 2]%N))) as (u & E); [vm_compute; reflexivity|].
  exists u. split; [split; auto; repeat constructor|]. split; [reflexivity|]. split; [apply is_non_eq; vm_compute; reflexivity|]. split; [reflexivity|exact E].
Qed.

(** C67: a row times a matrix with three columns has two elements. *)
Theorem c67_row_refuted :
  exists (m : list (list F17)) v u,
    shape 2 3 m /\ length v = 2 /\ mul_row_vec_at_left F17 m v = Val u /\ length u <> 3.
Proof.
  exists (m17 [[1; 2; 3]; [4; 5; 6]]%N), (v17 [1; 2]%N). eexists.
  split; [split; auto; repeat constructor|]. split; auto. split; [reflexivity|]. vm_compute. discriminate.
Qed.

(** * C68 *)
(** The matrix without its first row and column. *)
Definition tail_of {K : fld} (m : list (list K)) : list (list K) := map (skipn 1) (skipn 1 m).

Section C68.
Variable K : fld.

Lemma not_singular n (m : list (list K)) : ~ singular n m -> nonsing K n (ent m).
Proof.
  intros H x X i Hi. destruct (feq_dec K (x i) f0) as [|NZ]; auto. exfalso. apply H. exists x. eauto.
Qed.

Lemma tail_ent n (m : list (list K)) i j : sq (S n) m -> i < n -> j < n -> ent (tail_of m) i j = hat K (ent m) i j.
Proof.
  intros [L W] Hi Hj. unfold ent, tail_of, hat. rewrite (nth_map_lt _ _ _ _ []) by (rewrite skipn_length; lia).
  now rewrite !nth_skip1.
Qed.

Lemma tail_nonsing n (m : list (list K)) : sq (S n) m -> ~ singular n (tail_of m) -> nonsing K n (hat K (ent m)).
Proof.
  intros Q H. apply not_singular in H. eapply nonsing_ext; [|exact H]. intros i j Hi Hj. now apply (tail_ent n).
Qed.

Lemma tail_sym n (m : list (list K)) : sq (S n) m -> symmetric n (tail_of m) -> symf K n (hat K (ent m)).
Proof. intros Q H i j Hi Hj. rewrite <- !(tail_ent n) by auto. now apply H. Qed.

(** C68: an invertible matrix whose tail is invertible has derived matrices, and when the
    tail is symmetric the two factors multiply to the matrix. *)
Theorem c68_derive n (m : list (list K)) : 1 <= n -> sq (S n) m -> ~ singular (S n) m -> ~ singular n (tail_of m) ->
  exists d, derive_mds_matrices K m = Val d /\ m_ K d = m /\
    mul_is_id (S n) m (m_inv K d) /\ mul_is_id (S n) (m_inv K d) m.
Proof.
  intros Hn Q NS NT. destruct (derive_ok K n m Hn Q) as (d & E & M & _ & I1 & I2 & _); auto.
  - now apply not_singular.
  - now apply tail_nonsing.
  - exists d. auto.
Qed.

Theorem c68_product_partial n (m : list (list K)) d : 1 <= n -> sq (S n) m -> ~ singular (S n) m ->
  ~ singular n (tail_of m) -> symmetric n (tail_of m) -> derive_mds_matrices K m = Val d ->
  forall i j, i < S n -> j < S n -> prod_ent (S n) (m_prime K d) (m_double_prime K d) i j = ent m i j.
Proof.
  intros Hn Q NS NT SY E. destruct (derive_ok K n m Hn Q) as (d' & E' & _ & _ & _ & _ & _ & _ & _ & P); auto.
  - now apply not_singular.
  - now apply tail_nonsing.
  - assert (d' = d) as -> by congruence. apply P. now apply tail_sym.
Qed.

(** C68: [k + 1] products with the matrix, with any functions on the first element between
    them, are one product with the first factor and [k] products with sparse matrices. *)
Theorem c68_factor_partial n (base : list (list K)) k : 1 <= n -> sq (S n) base -> ~ singular (S n) base ->
  ~ singular n (tail_of base) -> symmetric n (tail_of base) ->
  exists pre sps, factor_to_sparse_matrixes K base k = Val (pre, sps) /\ length sps = k /\
    forall ss x, length ss = k -> forall j, j < S n ->
      alternate (S n) ss (repeat base k) (rowmul (S n) base x) j =
      alternate (S n) ss (map (to_matrix K) sps) (rowmul (S n) pre x) j.
Proof.
  intros Hn Q NS NT SY. destruct (factor_ok K n base k Hn Q) as (pre & sps & E & _ & L & _ & H).
  - now apply not_singular.
  - now apply tail_nonsing.
  - now apply tail_sym.
  - exists pre, sps. split; auto. split; auto. intros ss x Ls j Hj.
    rewrite <- !(alternate_layers K). rewrite <- Ls. apply (H ss x Ls j Hj).
Qed.
End C68.

(** A sparse matrix is dense in its first row and column only. *)
Theorem c68_sparse (K : fld) (s : sparse K) i j : length (v_rest K s) + 1 = length (w_hat K s) ->
  1 <= i -> i < length (w_hat K s) -> 1 <= j -> j < length (w_hat K s) -> ent (to_matrix K s) i j = delta i j.
Proof.
  intros L Hi1 Hi Hj1 Hj. unfold to_matrix, ent. set (n := length (w_hat K s)) in *.
  destruct (identity_sq K n) as [Li _].
  rewrite (nth_mapi _ _ _ _ []) by (rewrite mapi_len; lia).
  destruct i as [|i]; [lia|]. rewrite (nth_mapi _ _ _ _ []) by lia.
  destruct (identity_row K n (S i) Hi) as [Lr U].
  rewrite set_nth_at by lia. destruct j as [|j]; [lia|]. cbn [Nat.eqb].
  fold (at_ K (nth (S i) (identity K n) []) (S j)). rewrite U by auto. apply delta_sym.
Qed.

Definition zb (n : nat) (m : list (list F17)) : bool := is_val (inverse F17 m).
Lemma not_singular_17 n m : 1 <= n -> sqb n m = true -> zb n m = true -> ~ singular n m.
Proof.
  intros Hn Q H. apply sqb_sq in Q. apply is_val_ex in H. destruct H as (w & E).
  destruct (inverse_val F17 n m w Hn Q E) as (_ & _ & I). pose proof (left_inverse_nonsing F17 n m w I) as NS.
  intros (x & (i & Hi & NZ) & X). apply NZ. apply (NS x X i Hi).
Qed.
Definition symb (n : nat) (m : list (list F17)) : bool :=
  forallb (fun i => forallb (fun j => feqb (ent m i j) (ent m j i)) (seq 0 n)) (seq 0 n).
Lemma symb_sym n m : symb n m = true -> symmetric n m.
Proof.
  intros H i j Hi Hj. unfold symb in H. rewrite forallb_forall in H.
  specialize (H i ltac:(apply in_seq; lia)). rewrite forallb_forall in H.
  specialize (H j ltac:(apply in_seq; lia)). now apply (proj1 (feqb_spec F17 _ _)).
Qed.

(** Not symmetric itself, but with a symmetric tail. *)
Definition c3 := m17 [[1; 2; 3]; [4; 5; 6]; [8; 6; 10]]%N.
Example c68_example : sq 3 c3 /\ ~ singular 3 c3 /\ ~ singular 2 (tail_of c3) /\ symmetric 2 (tail_of c3) /\
  exists d, derive_mds_matrices F17 c3 = Val d.
Proof.
  split; [apply sqb_sq; vm_compute; reflexivity|].
  split; [apply not_singular_17; [lia| |]; vm_compute; reflexivity|].
  split; [apply not_singular_17; [lia| |]; vm_compute; reflexivity|].
  split; [apply symb_sym; vm_compute; reflexivity|]. apply is_val_ex. vm_compute. reflexivity.
Qed.

(** C68: without a symmetric tail the factors do not multiply to the matrix. *)
Theorem c68_product_refuted :
  exists (m : list (list F17)) d, sq 3 m /\ ~ singular 3 m /\ ~ singular 2 (tail_of m) /\
    derive_mds_matrices F17 m = Val d /\ prod_ent 3 (m_prime F17 d) (m_double_prime F17 d) 1 0 <> ent m 1 0.
Proof.
  set (m := m17 [[1; 2; 3]; [4; 5; 6]; [8; 7; 10]]%N).
  destruct (is_val_ex (derive_mds_matrices F17 m)) as (d & E); [vm_compute; reflexivity|].
  exists m, d. split; [apply sqb_sq; vm_compute; reflexivity|].
  split; [apply not_singular_17; [lia| |]; vm_compute; reflexivity|].
  split; [apply not_singular_17; [lia| |]; vm_compute; reflexivity|].
  split; auto. apply feqb_false.
  transitivity (match derive_mds_matrices F17 m with
                | Val d => feqb (prod_ent 3 (m_prime F17 d) (m_double_prime F17 d) 1 0) (ent m 1 0)
                | _ => true end); [now rewrite E|]. vm_compute. reflexivity.
Qed.

(** C68: nor is the factorization right. *)
Theorem c68_factor_refuted :
  exists (m : list (list F17)) pre sps x, sq 3 m /\ ~ singular 3 m /\ ~ singular 2 (tail_of m) /\
    factor_to_sparse_matrixes F17 m 1 = Val (pre, sps) /\
    alternate 3 [fun e => e] [m] (rowmul 3 m x) 0 <> alternate 3 [fun e => e] (map (to_matrix F17) sps) (rowmul 3 pre x) 0.
Proof.
  set (m := m17 [[1; 2; 3]; [4; 5; 6]; [8; 7; 10]]%N).
  destruct (is_val_ex (factor_to_sparse_matrixes F17 m 1)) as ((pre & sps) & E); [vm_compute; reflexivity|].
  exists m, pre, sps, (fun i => z17 (N.of_nat i)). split; [apply sqb_sq; vm_compute; reflexivity|].
  split; [apply not_singular_17; [lia| |]; vm_compute; reflexivity|].
  split; [apply not_singular_17; [lia| |]; vm_compute; reflexivity|].
  split; auto. apply feqb_false.
  transitivity (match factor_to_sparse_matrixes F17 m 1 with
                | Val (pre, sps) => feqb (alternate 3 [fun e => e] [m] (rowmul 3 m (fun i => z17 (N.of_nat i))) 0)
                    (alternate 3 [fun e => e] (map (to_matrix F17) sps) (rowmul 3 pre (fun i => z17 (N.of_nat i))) 0)
                | _ => true end); [now rewrite E|]. vm_compute. reflexivity.
Qed.

(** * C69 *)
Section C69.
Variable K : fld.

Lemma derive_inv (m : list (list K)) d : derive_mds_matrices K m = Val d ->
  inverse K m = Val (m_inv K d) /\ exists h hi, minor K m 0 0 = Val h /\ inverse K h = Val hi.
Proof.
  unfold derive_mds_matrices. destruct (inverse K m) as [mi| |]; cbn [pexpect pbind]; try discriminate.
  destruct (minor K m 0 0) as [h| |]; cbn [pexpect pbind]; try discriminate.
  destruct (inverse K h) as [hi| |] eqn:Eh; cbn [pexpect pbind]; try discriminate.
  destruct (make_double_prime K m hi) as [dp| |]; cbn [pbind]; try discriminate.
  intros E. assert (mi = m_inv K d) as <- by (inversion E; reflexivity). eauto 6.
Qed.

Section Optimized.
Variables (sbox : K -> K) (n half partial : nat) (m : list (list K)) (keys : list K) (d : mds K).
Hypothesis n1 : 1 <= n.
Hypothesis half1 : 1 <= half.
Hypothesis Q : sq (S n) m.
Hypothesis SY : symmetric (S n) m.
Hypothesis LK : length keys = (half + half + partial) * S n.
Hypothesis D : derive_mds_matrices K m = Val d.

(** C69: the permutation with compressed constants, and with the matrices factored in
    addition, is the permutation of mod.rs. *)
Theorem c69_compress_partial :
  exists ks, compress_round_constants K (S n) (half + half) partial keys d = Val ks /\
    length ks = (half + half) * S n + partial /\
    forall st, length st = S n -> forall j, j < S n ->
      nth j (permute K sbox (S n) (half + half) partial keys (concat m) st) f0 =
      opt_eval sbox (S n) half partial ks m m (repeat m partial) (fun i => nth i st f0) j.
Proof.
  destruct (derive_inv m d D) as (Ei & _). destruct (inverse_val K (S n) m _ ltac:(lia) Q Ei) as (Qi & _ & I2).
  destruct (compress_ok K sbox (S n) half partial m Q ltac:(lia) keys d half1 LK SY Qi I2) as (ks & E & L & H).
  exists ks. split; auto. split; auto. intros st Lst j Hj. apply (H m (repeat m partial)); auto.
  - apply repeat_length.
  - intros ss x Ls i Hi. auto.
Qed.

Theorem c69_optimized_partial :
  exists ks pre sps, compress_round_constants K (S n) (half + half) partial keys d = Val ks /\
    factor_to_sparse_matrixes K m partial = Val (pre, sps) /\ length sps = partial /\
    forall st, length st = S n -> forall j, j < S n ->
      nth j (permute K sbox (S n) (half + half) partial keys (concat m) st) f0 =
      opt_eval sbox (S n) half partial ks m pre (map (to_matrix K) sps) (fun i => nth i st f0) j.
Proof.
  destruct (derive_inv m d D) as (Ei & h & hi & Eh & Ehi).
  destruct (inverse_val K (S n) m _ ltac:(lia) Q Ei) as (Qi & _ & I2).
  destruct (minor_ok K n m Q n1) as (h' & E' & Qh & EN). assert (h' = h) as -> by congruence.
  destruct (inverse_val K n h hi n1 Qh Ehi) as (_ & _ & J2).
  destruct (factor_ok K n m partial n1 Q) as (pre & sps & F & _ & Ls & _ & G).
  - eapply left_inverse_nonsing; eauto.
  - eapply nonsing_ext; [|eapply left_inverse_nonsing; eauto]. exact EN.
  - intros i j Hi Hj. unfold hat. apply SY; lia.
  - destruct (compress_ok K sbox (S n) half partial m Q ltac:(lia) keys d half1 LK SY Qi I2) as (ks & E & L & H).
    exists ks, pre, sps. split; auto. split; auto. split; auto. intros st Lst j Hj. apply (H pre (map (to_matrix K) sps)); auto.
    + now rewrite map_length.
    + intros ss x Lss i Hi. rewrite <- !(alternate_layers K). rewrite <- Lss. apply (G ss x Lss i Hi).
Qed.
End Optimized.

(** With no full rounds there is nothing to start from: [half_full_rounds - 1] is below zero. *)
Theorem c69_no_full_rounds w partial keys d : compress_round_constants K w 1 partial keys d = Pan.
Proof. reflexivity. Qed.
End C69.

Definition g3 : list (list F17) := match generate_mds F17 3 with Val m => m | _ => [] end.
Definition keys3 : list F17 := map (fun i => z17 (N.of_nat (i * i + 3 * i + 1))) (seq 0 ((2 + 2 + 3) * 3)).

Example c69_example : sq 3 g3 /\ symmetric 3 g3 /\ length keys3 = (2 + 2 + 3) * 3 /\
  exists d, derive_mds_matrices F17 g3 = Val d.
Proof.
  split; [apply sqb_sq; vm_compute; reflexivity|]. split; [apply symb_sym; vm_compute; reflexivity|].
  split; [reflexivity|]. apply is_val_ex. vm_compute. reflexivity.
Qed.

(** C69: the compression multiplies rows and the permutation columns, so a matrix that is not
    symmetric gives another permutation. *)
Theorem c69_refuted :
  exists (m : list (list F17)) d ks st, sq 3 m /\ derive_mds_matrices F17 m = Val d /\
    compress_round_constants F17 3 (2 + 2) 3 keys3 d = Val ks /\ length st = 3 /\
    nth 1 (permute F17 (power_sbox F17 5) 3 (2 + 2) 3 keys3 (concat m) st) f0 <>
    opt_eval (power_sbox F17 5) 3 2 3 ks m m (repeat m 3) (fun i => nth i st f0) 1.
Proof.
  destruct (is_val_ex (derive_mds_matrices F17 c3)) as (d & E); [vm_compute; reflexivity|].
  destruct (is_val_ex (compress_round_constants F17 3 (2 + 2) 3 keys3 d)) as (ks & Ek).
  { transitivity (match derive_mds_matrices F17 c3 with Val d => is_val (compress_round_constants F17 3 (2 + 2) 3 keys3 d)
                  | _ => true end); [now rewrite E|]. vm_compute. reflexivity. }
  exists c3, d, ks, (v17 [1; 2; 3]%N).
  split; [apply sqb_sq; vm_compute; reflexivity|]. split; auto. split; auto. split; [reflexivity|]. apply feqb_false.
  transitivity (match derive_mds_matrices F17 c3 with
    | Val d => match compress_round_constants F17 3 (2 + 2) 3 keys3 d with
      | Val ks => feqb (nth 1 (permute F17 (power_sbox F17 5) 3 (2 + 2) 3 keys3 (concat c3) (v17 [1; 2; 3]%N)) f0)
          (opt_eval (power_sbox F17 5) 3 2 3 ks c3 c3 (repeat c3 3) (fun i => nth i (v17 [1; 2; 3]%N) f0) 1)
      | _ => true end
    | _ => true end); [now rewrite E, Ek|]. vm_compute. reflexivity.
Qed.

(** * C70 *)
Section C70.
Variable K : fld.

(** C70: when the numbers below [3 t] are not zero in the field the matrix exists, is
    symmetric, and every square submatrix of it is nonsingular. *)
Theorem c70_mds t : (forall k, 0 < k -> k < 3 * t -> from_u64 K k <> f0) ->
  exists m, generate_mds K t = Val m /\ sq t m /\ symmetric t m /\
    forall I J, NoDup I -> NoDup J -> length I = length J -> (forall i, In i I -> i < t) -> (forall j, In j J -> j < t) ->
    forall c, (forall i, i < length I -> sum (length I) (fun j => fmul (ent m (nth i I 0) (nth j J 0)) (c j)) = f0) ->
      forall j, j < length I -> c j = f0.
Proof.
  intros D. destruct (generate_ok K t D) as (m & E & Q & _). exists m. split; auto. split; auto.
  split; [now apply generate_sym|]. intros I J NI NJ L HI HJ. now apply (generate_mds_sub K t m I J D E).
Qed.

(** C70: so all the matrices derived from it exist ([MdsMatrices::new] does not panic), and
    its factorization does. *)
Theorem c70_total n : 1 <= n -> (forall k, 0 < k -> k < 3 * S n -> from_u64 K k <> f0) ->
  exists m d, generate_mds K (S n) = Val m /\ derive_mds_matrices K m = Val d /\
    (forall i j, i < S n -> j < S n -> prod_ent (S n) (m_prime K d) (m_double_prime K d) i j = ent m i j) /\
    forall k, exists pre sps, factor_to_sparse_matrixes K m k = Val (pre, sps) /\ length sps = k.
Proof.
  intros Hn D. destruct (generate_ok K (S n) D) as (m & E & Q & _).
  pose proof (generate_nonsing K (S n) m D E) as NS. pose proof (generate_nonsing_hat K n m D E) as NH.
  pose proof (generate_sym K (S n) m D E) as SY.
  assert (symf K n (hat K (ent m))) as SH by (intros i j Hi Hj; unfold hat; apply SY; lia).
  destruct (derive_ok K n m Hn Q NS NH) as (d & Ed & _ & _ & _ & _ & _ & _ & _ & P).
  exists m, d. split; auto. split; auto. split; [now apply P|].
  intros k. destruct (factor_ok K n m k Hn Q NS NH SH) as (pre & sps & F & _ & L & _). eauto.
Qed.

(** A single row has no minor: [MdsMatrices::new(1)] panics. *)
Theorem c70_width_one (m : list (list K)) : sq 1 m -> derive_mds_matrices K m = Pan.
Proof.
  intros Q. unfold derive_mds_matrices.
  destruct (inverse K m) as [mi| |] eqn:E; auto. cbn [pexpect pbind]. destruct Q as [L _].
  unfold minor, num_rows. rewrite L. reflexivity.
Qed.
End C70.

Lemma numbers_17 t : t <= 5 -> forall k, 0 < k -> k < 3 * t -> from_u64 F17 k <> f0.
Proof.
  intros Ht k H1 H2. apply feqb_false.
  assert (forallb (fun k => negb (feqb (from_u64 F17 k) f0)) (seq 1 14) = true) as A by (vm_compute; reflexivity).
  rewrite forallb_forall in A. specialize (A k ltac:(apply in_seq; lia)). now apply negb_true_iff in A.
Qed.
Example c70_example : (forall k, 0 < k -> k < 3 * 5 -> from_u64 F17 k <> f0) /\ exists m, generate_mds F17 5 = Val m.
Proof. split; [now apply numbers_17|]. apply is_val_ex. vm_compute. reflexivity. Qed.

(** C70: in a field too small for the width the generation panics. *)
Example c70_small_field : generate_mds F17 7 = Pan.
Proof. apply is_pan_eq. vm_compute. reflexivity. Qed.

(** * C71 *)
Section C71.
Variable K : fld.
Variables (sbox : K -> K) (width half partial : nat) (m : list (list K)) (keys : list K).

(** C71: with an S-box that is one to one and an invertible matrix the permutation is one. *)
Theorem c71_bijective mi : 1 <= width -> 1 <= half -> sq width m -> mul_is_id width m mi -> sq width mi ->
  (forall a b, sbox a = sbox b -> a = b) -> (forall a, exists b, sbox b = a) ->
  (forall st st', length st = width -> length st' = width ->
     permute K sbox width (half + half) partial keys (concat m) st = permute K sbox width (half + half) partial keys (concat m) st' ->
     st = st') /\
  forall t, length t = width -> exists st, length st = width /\ permute K sbox width (half + half) partial keys (concat m) st = t.
Proof.
  intros Hw Hh Q I Qi SI SS.
  assert (nonsing K width (ent m)) as NS by (eapply left_inverse_nonsing, right_is_left; eauto).
  split.
  - intros st st' L L'. eapply permute_inj; eauto.
  - intros t L. eapply permute_sur; eauto.
Qed.

(** C71: hashing is the permutation on the domain tag and the inputs, cut to one element,
    although its first round is written separately. *)
Theorem c71_hash full tag input : S (length input) = width ->
  hash_untruncated K sbox width full partial keys (concat m) tag input =
    permute K sbox width full partial keys (concat m) (tag :: input) /\
  hash K sbox width full partial keys (concat m) tag input =
    hd_error (permute K sbox width full partial keys (concat m) (tag :: input)).
Proof.
  intros L.
  assert (first_round_with_domain_tag K sbox width keys (concat m) tag input =
          full_round K sbox width keys (concat m) 0 (tag :: input)) as E.
  { unfold first_round_with_domain_tag, full_round. f_equal. unfold mapi. apply map_ext_in.
    intros [i p] Hi. cbn [fst snd]. apply in_combine_l in Hi. apply in_seq in Hi. simpl length in Hi.
    do 2 f_equal. unfold round_keys, at_. rewrite Nat.mul_0_l. cbn [skipn].
    assert (i < width) as Hi' by lia. clear - Hi'. revert i width Hi'. generalize keys.
    induction keys0 as [|k ks IH]; intros i [|w] H; try lia.
    - destruct i; reflexivity.
    - destruct i; [reflexivity|]. simpl. apply IH. lia. }
  unfold hash, hash_untruncated, permute. rewrite E. auto.
Qed.

(** C71: so hashes without truncation of different inputs are different. *)
Theorem c71_injective mi tag input input' : 1 <= half -> sq width m -> mul_is_id width m mi -> sq width mi ->
  (forall a b, sbox a = sbox b -> a = b) -> S (length input) = width -> S (length input') = width ->
  hash_untruncated K sbox width (half + half) partial keys (concat m) tag input =
  hash_untruncated K sbox width (half + half) partial keys (concat m) tag input' -> input = input'.
Proof.
  intros Hh Q I Qi SI L L' E. rewrite (proj1 (c71_hash _ tag input L)), (proj1 (c71_hash _ tag input' L')) in E.
  assert (1 <= width) as Hw by lia.
  assert (nonsing K width (ent m)) as NS by (eapply left_inverse_nonsing, right_is_left; eauto).
  assert (tag :: input = tag :: input') as E' by (eapply permute_inj; try exact E; eauto; simpl; lia). congruence.
Qed.
End C71.

Section Sbox.
Variable K : fld.
Add Field Kpow : (fth K).
Lemma fpow_add (x : K) a b : fpow K x (a + b) = fmul (fpow K x a) (fpow K x b).
Proof.
  induction a as [|a IH]; simpl; [ring|]. rewrite IH. ring.
Qed.
Lemma fpow_mul (x : K) a b : fpow K (fpow K x a) b = fpow K x (a * b).
Proof.
  induction b as [|b IH]; simpl.
  - now rewrite Nat.mul_0_r.
  - rewrite IH, <- fpow_add. f_equal. lia.
Qed.

(** C71: a power with an inverse exponent is such an S-box. *)
Theorem c71_power e e' : (forall x, fpow K x (e * e') = x) ->
  (forall a b, power_sbox K e a = power_sbox K e b -> a = b) /\ forall a, exists b, power_sbox K e b = a.
Proof.
  intros H. unfold power_sbox. split.
  - intros a b E. rewrite <- (H a), <- (H b), <- !fpow_mul. now rewrite E.
  - intros a. exists (fpow K a e'). rewrite fpow_mul, Nat.mul_comm. apply H.
Qed.
End Sbox.

(** The fifth power in the field with seventeen elements. *)
Lemma fermat17 (x : F17) : fpow F17 x (5 * 13) = x.
Proof.
  assert (forallb (fun k => feqb (fpow F17 (z17 (N.of_nat k)) (5 * 13)) (z17 (N.of_nat k))) (seq 0 17) = true) as A
    by (vm_compute; reflexivity).
  rewrite forallb_forall in A. pose proof (zp_small 17 x) as S.
  assert (z17 (N.of_nat (N.to_nat (proj1_sig x))) = x) as E.
  { rewrite N2Nat.id. apply (zp_eq 17). cbn [z17 mkz proj1_sig]. apply N.mod_small. exact S. }
  specialize (A (N.to_nat (proj1_sig x))). rewrite E in A. apply (proj1 (feqb_spec F17 _ _)). apply A.
  apply in_seq. lia.
Qed.
Example c71_example : exists mi, mul_is_id 3 g3 mi /\ sq 3 mi /\ sq 3 g3 /\
  (forall a b, power_sbox F17 5 a = power_sbox F17 5 b -> a = b) /\ forall a, exists b, power_sbox F17 5 b = a.
Proof.
  assert (sq 3 g3) as Q by (apply sqb_sq; vm_compute; reflexivity).
  destruct (is_val_ex (inverse F17 g3)) as (mi & E); [vm_compute; reflexivity|].
  destruct (inverse_val F17 3 g3 mi ltac:(lia) Q E) as (Qi & I & _).
  exists mi. split; auto. split; auto. split; auto. apply (c71_power F17 5 13). exact fermat17.
Qed.

Print Assumptions c66_correct.
Print Assumptions c66_none.
Print Assumptions c66_complete.
Print Assumptions c66_no_panic.
Print Assumptions c66_empty_panics.
Print Assumptions c67_square_partial.
Print Assumptions c67_outer_partial.
Print Assumptions c67_col_partial.
Print Assumptions c67_row_partial.
Print Assumptions c67_matmul_refuted.
Print Assumptions c67_col_refuted.
Print Assumptions c67_row_refuted.
Print Assumptions c68_derive.
Print Assumptions c68_product_partial.
Print Assumptions c68_factor_partial.
Print Assumptions c68_sparse.
Print Assumptions c68_product_refuted.
Print Assumptions c68_factor_refuted.
Print Assumptions c69_compress_partial.
Print Assumptions c69_optimized_partial.
Print Assumptions c69_no_full_rounds.
Print Assumptions c69_refuted.
Print Assumptions c70_mds.
Print Assumptions c70_total.
Print Assumptions c70_width_one.
Print Assumptions c71_bijective.
Print Assumptions c71_hash.
Print Assumptions c71_injective.
Print Assumptions c71_power.
