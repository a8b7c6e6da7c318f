(** A small executable cipher, key derivation and generator that meet the laws of CoSpec, used to run the
    model in examples and witnesses. *)
From Coq Require Import List NArith Lia Bool Arith.
From Verif Require Import CoModel CoSpec CoLemmas.
Import ListNotations.
Open Scope nat_scope.

(** A polynomial digest; stands in for Poly1305, GHASH and PBKDF2. *)
Definition dg (seed : N) (bs : bytes) : N :=
  fold_left (fun acc b => (acc * 257 + b + 1) mod 1000003)%N bs seed.

Definition t_cipher (c : cipher) : N := match c with Chacha20Poly1305 => 3%N | Aes256Gcm => 5%N end.
Definition t_stream (c : cipher) (k n : bytes) : nat -> N :=
  let a := (dg (t_cipher c) k * 31 + dg 7 n)%N in fun i => (a * (N.of_nat (Nat.min i 4) + 1) mod 251)%N.
Fixpoint t_xor (f : nat -> N) (i : nat) (d : bytes) : bytes :=
  match d with [] => [] | b :: r => N.lxor b (f i) :: t_xor f (S i) r end.
Definition t_tag (c : cipher) (k n a ct : bytes) : bytes := le 16 (dg (dg (dg (dg (t_cipher c) k) n) a) ct).
Definition t_seal (c : cipher) (k n a d : bytes) : option (bytes * bytes) :=
  let ct := t_xor (t_stream c k n) 0 d in Some (ct, t_tag c k n a ct).
Definition t_open (c : cipher) (k n a ct tag : bytes) : option bytes :=
  if bytes_eqb tag (t_tag c k n a ct) then Some (t_xor (t_stream c k n) 0 ct) else None.
Definition t_kdf (salt password : bytes) (it : N) : bytes := le 32 (dg (dg it salt) password).
Definition t_from_seed (s : bytes) : N := dg 1 s.
Definition t_fill (r : N) (n : nat) : bytes * N := (le n (r * 65537), (r + 1)%N).

Lemma t_xor_len : forall f d i, length (t_xor f i d) = length d.
Proof. induction d; intros i; cbn [t_xor length]; auto. Qed.
Lemma t_xor_xor : forall f d i, t_xor f i (t_xor f i d) = d.
Proof.
  induction d as [|b r IH]; intros i; cbn [t_xor]; [reflexivity|].
  rewrite IH, N.lxor_assoc, N.lxor_nilpotent, N.lxor_0_r. reflexivity.
Qed.
Lemma t_xor_nth : forall f d i j x y, nth_error d j = Some x -> nth_error (t_xor f i d) j = Some y ->
  y = N.lxor x (f (i + j)).
Proof.
  induction d as [|b r IH]; intros i j x y H1 H2; [destruct j; discriminate|].
  cbn [t_xor] in H2. destruct j as [|j].
  - cbn in *. rewrite Nat.add_0_r. congruence.
  - cbn [nth_error] in *. rewrite (IH _ _ _ _ H1 H2). f_equal. f_equal. lia.
Qed.
Lemma t_aead : aead_ok t_seal t_open.
Proof.
  intros c k n a d ct tag E. unfold t_seal in E.
  assert (E1 : ct = t_xor (t_stream c k n) 0 d) by congruence.
  assert (E2 : tag = t_tag c k n a (t_xor (t_stream c k n) 0 d)) by congruence. subst.
  split; [apply t_xor_len|]. split; [apply le_len|].
  unfold t_open. rewrite (proj2 (bytes_eqb_true _ _) eq_refl). f_equal. apply t_xor_xor.
Qed.
Lemma t_tight : aead_tight t_seal t_open.
Proof.
  intros c k n a ct tag d E. unfold t_open in E.
  destruct (bytes_eqb tag (t_tag c k n a ct)) eqn:T; [|discriminate]. apply bytes_eqb_true in T.
  assert (E1 : d = t_xor (t_stream c k n) 0 ct) by congruence. subst d tag.
  unfold t_seal. rewrite t_xor_xor. reflexivity.
Qed.
Lemma t_is_stream : is_stream t_seal t_stream.
Proof.
  intros c k n a d ct tag E i x y H1 H2. unfold t_seal in E.
  assert (E1 : ct = t_xor (t_stream c k n) 0 d) by congruence. subst ct.
  exact (t_xor_nth _ _ _ _ _ _ H1 H2).
Qed.
Lemma t_fill_ok : fill_ok t_fill.
Proof. intros r n. cbn [t_fill fst]. apply le_len. Qed.
