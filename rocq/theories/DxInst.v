(** A concrete instance of the parameters of the note encryption model, for the examples: the
    scalar field of BN254, a bijective toy permutation of width 4, the additive group of the
    field in place of the curve, and a toy authenticated cipher. *)
From Coq Require Import List NArith Arith Bool Lia Eqdep_dec.
From Verif Require Import DxModel.
Import ListNotations.
Open Scope N_scope.

Definition q : N := 21888242871839275222246405745257275088548364400416034343698204186575808495617.
Definition Fq : Set := {x : N | (x <? q) = true}.
Lemma mk_ok : forall x, (x mod q <? q) = true.
Proof. intros x. apply N.ltb_lt. apply N.mod_lt. discriminate. Qed.
Definition mk (x : N) : Fq := exist _ (x mod q) (mk_ok x).
Definition val (x : Fq) : N := proj1_sig x.
Lemma val_lt : forall x, val x < q.
Proof. intros [x H]. apply N.ltb_lt. exact H. Qed.
Lemma val_inj : forall x y, val x = val y -> x = y.
Proof.
  intros [x H] [y K] E. cbn in E. subst y. f_equal. apply eq_proofs_unicity.
  intros [|] [|]; auto. right. discriminate.
Qed.
Lemma mk_val : forall x, mk (val x) = x.
Proof. intros x. apply val_inj. cbn [mk val proj1_sig]. apply N.mod_small, val_lt. Qed.

Definition fadd (x y : Fq) : Fq := mk (val x + val y).
Definition fsub (x y : Fq) : Fq := mk (val x + (q - val y)).
Definition feqb (x y : Fq) : bool := val x =? val y.
Definition fzero : Fq := mk 0.

Lemma feqb_spec : forall x y, feqb x y = true <-> x = y.
Proof.
  intros x y. unfold feqb. rewrite N.eqb_eq. split; [apply val_inj|congruence].
Qed.
Lemma sub_add : forall s m, fsub (fadd s m) s = m.
Proof.
  intros s m. apply val_inj. unfold fsub, fadd. cbn [mk val proj1_sig].
  fold (val s) (val m). pose proof (val_lt s) as A. pose proof (val_lt m) as B.
  assert (Q : q <> 0) by discriminate.
  rewrite N.add_mod_idemp_l by exact Q.
  replace (val s + val m + (q - val s)) with (val m + 1 * q) by lia.
  rewrite N.mod_add by exact Q. apply N.mod_small. exact B.
Qed.

(** [a; b; c; d] to [b; c; d; a + b * c + 1], and the identity on other lengths. *)
Definition permute (st : list Fq) : list Fq :=
  match st with
  | [a; b; c; d] => [b; c; d; mk (val a + val b * val c + 1)]
  | _ => st
  end.
Lemma permute_len : forall st, length (permute st) = length st.
Proof. intros [|a [|b [|c [|d [|e st]]]]]; reflexivity. Qed.
Definition init : list Fq := [mk 7; mk 0; mk 0; mk 0].

Definition fenc (x : Fq) : list N := le_bytes 32 (val x).
Definition fdec (bs : list N) : option Fq :=
  if of_le_bytes bs <? q then Some (mk (of_le_bytes bs)) else None.

Lemma le_len : forall n v, length (le_bytes n v) = n.
Proof. induction n; intros v; cbn [le_bytes length]; auto. Qed.
Lemma of_le_le : forall n v, v < 256 ^ N.of_nat n -> of_le_bytes (le_bytes n v) = v.
Proof.
  induction n as [|n IH]; intros v H.
  - cbn in *. lia.
  - cbn [le_bytes of_le_bytes]. rewrite IH.
    + rewrite N.add_comm. symmetry. apply N.div_mod. discriminate.
    + rewrite Nat2N.inj_succ, N.pow_succ_r' in H. apply N.div_lt_upper_bound; [discriminate|exact H].
Qed.
Lemma fenc_len : forall x, length (fenc x) = 32%nat.
Proof. intros x. apply le_len. Qed.
Lemma fdec_fenc : forall x, fdec (fenc x) = Some x.
Proof.
  intros x. unfold fdec, fenc. pose proof (val_lt x) as L. rewrite of_le_le.
  - apply N.ltb_lt in L. rewrite L. f_equal. apply mk_val.
  - eapply N.lt_trans; [exact L|]. reflexivity.
Qed.
Lemma val_of_u128 : forall v, v < 2 ^ 128 -> val (mk v) = v.
Proof. intros v H. cbn [mk val proj1_sig]. apply N.mod_small. eapply N.lt_trans; [exact H|reflexivity]. Qed.

Definition smul (g s : Fq) : Fq := mk (val g * val s).
Definition gen : Fq := mk 5.
Lemma dh : forall a b, smul (smul gen a) b = smul (smul gen b) a.
Proof.
  intros a b. apply val_inj. unfold smul. cbn [mk val proj1_sig]. fold (val a) (val b).
  assert (Q : q <> 0) by discriminate.
  rewrite !N.mul_mod_idemp_l by exact Q. f_equal. lia.
Qed.
Definition gx (g : Fq) : Fq := g.
Definition gy (g : Fq) : Fq := mk (val g + 1).

(** The toy cipher: 16 bytes of the key in front. *)
Definition Key : Set := list N.
Definition khash (g : Fq) : Key := le_bytes 16 (val g).
Definition keq (a b : Key) : bool := if list_eq_dec N.eq_dec a b then true else false.
Definition aes_enc (k : Key) (m : list N) : list N := firstn 16 (k ++ repeat 0 16) ++ m.
Definition aes_dec (k : Key) (c : list N) : option (list N) :=
  if keq (firstn 16 c) (firstn 16 (k ++ repeat 0 16)) then Some (skipn 16 c) else None.
Lemma tag_len : forall k : Key, length (firstn 16 (k ++ repeat 0 16)) = 16%nat.
Proof. intros k. rewrite firstn_length, app_length, repeat_length. lia. Qed.
Lemma aes_len : forall k m, length (aes_enc k m) = (length m + 16)%nat.
Proof. intros k m. unfold aes_enc. rewrite app_length, tag_len. lia. Qed.
Lemma aes_ok : forall k m, aes_dec k (aes_enc k m) = Some m.
Proof.
  intros k m. unfold aes_dec, aes_enc.
  rewrite firstn_app, skipn_app, tag_len, Nat.sub_diag, firstn_O, app_nil_r, skipn_O.
  rewrite skipn_all2 by (rewrite tag_len; lia).
  rewrite firstn_all2 by (rewrite tag_len; lia).
  unfold keq. destruct list_eq_dec; [reflexivity|congruence].
Qed.
Lemma aes_dec_len : forall k c m, aes_dec k c = Some m -> (length m + 16)%nat = length c.
Proof.
  intros k c m H. unfold aes_dec, keq in H. destruct list_eq_dec as [E|E]; [|discriminate].
  assert (M : m = skipn 16 c) by congruence. rewrite M, skipn_length.
  assert (L : length (firstn 16 c) = 16%nat) by (rewrite E; apply tag_len).
  rewrite firstn_length in L. lia.
Qed.
Definition partition (g : Fq) : N := val g mod 256.
