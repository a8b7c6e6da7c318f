(** C35 (container headers and round trips), C36 (nonces) and C51 (reading hostile containers). *)
From Coq Require Import List NArith Lia Bool Arith.
From Verif Require Import CoModel CoSpec CoLemmas CoInst.
Import ListNotations.
Open Scope nat_scope.

(* ------------------------------------------------------------------------------------------- *)
(** * C35: headers *)

(** Parsing accepts exactly the byte strings of the published layout, and returns what stands there. *)
Theorem c35_header_accepts : forall buf h, header_deserialize buf = Ok h <-> header_layout buf h.
Proof. exact header_deserialize_iff. Qed.
Theorem c35_mini_header_accepts : forall buf h, mini_header_deserialize buf = Ok h <-> mini_layout buf h.
Proof. exact mini_deserialize_iff. Qed.

(** Serialising and parsing returns the same configuration, salt, nonce and length, whatever follows. *)
Theorem c35_header_round_trip : forall h rest, header_ok h ->
  length (header_serialize h) = 44 /\ header_deserialize (header_serialize h ++ rest) = Ok h.
Proof.
  intros h rest H. split; [exact (header_serialize_len h H)|].
  apply header_deserialize_iff. apply header_serialize_layout. exact H.
Qed.
Theorem c35_mini_header_round_trip : forall h rest, length (m_nonce h) = 12 -> (m_length h < 2 ^ 64)%N ->
  length (mini_header_serialize h) = 20 /\ mini_header_deserialize (mini_header_serialize h ++ rest) = Ok h.
Proof.
  intros h rest A B. split; [apply mini_serialize_len; split; assumption|].
  apply mini_serialize_deserialize; assumption.
Qed.

(** Short headers and headers with any of the five checked bytes wrong are rejected as unrecognised. *)
Theorem c35_header_rejects : forall buf,
  length buf < 44 \/
  (exists i (x : N), nth_error buf i = Some x /\
     ((i = 0 /\ x <> 127%N) \/ (i = 1 /\ x <> 192%N) \/ (i = 2 /\ x <> 10%N) \/ (i = 3 /\ x <> 1%N) \/
      (i = 4 /\ x <> 1%N /\ x <> 2%N) \/ (i = 5 /\ x <> 1%N) \/ (i = 6 /\ x <> 1%N /\ x <> 2%N))) ->
  header_deserialize buf = Err UnrecognizedFormat.
Proof.
  intros buf H. destruct (header_deserialize_err buf) as [[h E]|E]; [|exact E]. exfalso.
  apply header_deserialize_iff in E.
  destruct E as (L & M & V & C & K & W & _).
  destruct H as [H|(i & x & X & H)]; [lia|].
  assert (M0 := M 0 127%N eq_refl). assert (M1 := M 1 192%N eq_refl). assert (M2 := M 2 10%N eq_refl).
  cbn [Nat.add] in M0, M1, M2.
  destruct H as [(-> & N)|[(-> & N)|[(-> & N)|[(-> & N)|[(-> & N & N')|[(-> & N)|(-> & N & N')]]]]]];
    try (apply N; congruence).
  - destruct (c_cipher (h_config h)); [apply N|apply N']; congruence.
  - destruct (c_variant (h_config h)); [apply N|apply N']; congruence.
Qed.

(** An accepted header is determined by its bytes up to the reserved byte 7: writing it back gives the
    same 44 bytes with that byte cleared. *)
Theorem c35_header_canonical : forall buf h, wfb buf -> header_deserialize buf = Ok h ->
  header_serialize h = firstn 7 buf ++ [0%N] ++ slice buf 8 44.
Proof.
  intros buf h W E. apply header_deserialize_iff in E.
  destruct E as (L & M & V & C & K & X & S1 & F1 & S2 & F2 & G).
  rewrite be64_at_slice in G by lia.
  apply (field_slice buf (h_salt h) 8 24) in F1; [|lia|lia].
  apply (field_slice buf (h_nonce h) 24 36) in F2; [|lia|lia].
  assert (M0 := M 0 127%N eq_refl). assert (M1 := M 1 192%N eq_refl). assert (M2 := M 2 10%N eq_refl).
  cbn [Nat.add] in M0, M1, M2.
  assert (B : be 8 (h_length h) = slice buf 36 44).
  { rewrite G. rewrite <- (slice_len buf 36 44) at 1 by lia. apply be_un_be.
    unfold slice. apply Forall_forall. intros y Hy. apply (proj1 (Forall_forall _ _) W).
    rewrite <- (firstn_skipn 36 buf). apply in_or_app; right.
    rewrite <- (firstn_skipn (44 - 36) (skipn 36 buf)). apply in_or_app; left. exact Hy. }
  assert (P : slice buf 8 44 = slice buf 8 24 ++ slice buf 24 36 ++ slice buf 36 44).
  { unfold slice. change (44 - 8) with (16 + 20). change (24 - 8) with 16. change (36 - 24) with 12.
    change (44 - 36) with 8.
    assert (Q : forall (a b c : nat) (l : bytes), firstn (a + b) (skipn c l) = firstn a (skipn c l) ++ firstn b (skipn (c + a) l)).
    { clear. intros a b c l. revert l. induction c as [|c IH]; intros l; cbn [skipn Nat.add].
      - revert l. induction a as [|a IH]; intros l; cbn [Nat.add firstn app skipn]; [reflexivity|].
        destruct l as [|x l]; [cbn; destruct b; reflexivity|]. cbn [firstn skipn app]. f_equal. apply IH.
      - destruct l as [|x l]; [destruct a, b; reflexivity|]. apply IH. }
    rewrite (Q 16 20 8). f_equal. change 20 with (12 + 8). rewrite (Q 12 8 (8 + 16)). reflexivity. }
  rewrite P, F1, F2, <- B. unfold header_serialize, config_serialize.
  destruct h as [[ci [] v] salt nonce n]. cbn [h_config c_cipher c_kdf c_variant h_salt h_nonce h_length] in *.
  destruct buf as [|b0 [|b1 [|b2 [|b3 [|b4 [|b5 [|b6 buf]]]]]]]; cbn in L; try lia.
  cbn [nth_error] in M0, M1, M2, V, C, K, X. cbn [firstn app magic].
  injection M0 as ->. injection M1 as ->. injection M2 as ->. injection V as ->. injection K as ->.
  destruct ci, v; injection C as ->; injection X as ->; reflexivity.
Qed.

Example c35_header_example :
  let h := {| h_config := with_weak_kdf (with_cipher default_config Aes256Gcm);
              h_salt := repeat 1%N 16; h_nonce := repeat 2%N 12; h_length := 70000%N |} in
  header_ok h /\ header_deserialize (header_serialize h ++ [9%N]) = Ok h /\
  header_layout (header_serialize h) h /\
  header_deserialize (127 :: 192 :: 11 :: skipn 3 (header_serialize h))%N = Err UnrecognizedFormat /\
  header_deserialize (firstn 43 (header_serialize h)) = Err UnrecognizedFormat /\
  header_deserialize (firstn 7 (header_serialize h) ++ [77%N] ++ skipn 8 (header_serialize h)) = Ok h.
Proof.
  cbv zeta. split; [repeat split; vm_compute; reflexivity|].
  split; [vm_compute; reflexivity|].
  split; [apply c35_header_accepts; vm_compute; reflexivity|].
  split; [vm_compute; reflexivity|]. split; vm_compute; reflexivity.
Qed.

(* ------------------------------------------------------------------------------------------- *)
Section Containers.
  Variable kdf : bytes -> bytes -> N -> bytes.
  Variable seal : cipher -> bytes -> bytes -> bytes -> bytes -> option (bytes * bytes).
  Variable open : cipher -> bytes -> bytes -> bytes -> bytes -> bytes -> option bytes.
  Variable Rng : Type.
  Variable from_seed : bytes -> Rng.
  Variable fill : Rng -> nat -> bytes * Rng.
  Variable mem : N.

  (** ** C35: round trips *)

  (** Whatever is wrapped is unwrapped again by every container object with the same password (also one
      with another configuration or without a generator), also when other bytes follow. *)
  Theorem c35_wrap_unwrap : aead_ok seal open -> fill_ok fill ->
    forall k k' th data c th' rest, k_password k' = k_password k -> holds mem (length data) ->
    wrap kdf seal Rng fill k th data = Ok (c, th') ->
    unwrap kdf open Rng mem k' (c ++ rest) = Ok data.
  Proof.
    intros SEAL FILL k k' th data c th' rest PW HO W. unfold wrap in W.
    destruct (encrypt kdf seal Rng fill k th data) as [[[pre ct] t1]|e|] eqn:E; cbn [obind] in W; try discriminate.
    injection W as W1 W2. subst c t1.
    destruct (holds_64 mem _ HO) as [H64 H100].
    destruct (encrypt_inv kdf seal open Rng fill SEAL FILL k th data pre ct th' H64 E)
      as (h & tag & Hok & T & L & Hc & Hn & _ & -> & SE).
    unfold unwrap. rewrite <- !app_assoc. rewrite prefix_deserialize_eq by assumption. cbn [obind p_header].
    rewrite Hn. pose proof (header_serialize_len h Hok) as Len.
    destruct (N.ltb_spec usize_max (N.of_nat prefix_size + N.of_nat (length data))) as [X|X].
    { change (N.of_nat prefix_size) with 60%N in X. lia. }
    destruct (N.ltb_spec (N.of_nat (length (header_serialize h ++ tag ++ ct ++ rest)))
               (N.of_nat prefix_size + N.of_nat (length data))) as [Y|Y].
    { rewrite !app_length, Len, T in Y. change (N.of_nat prefix_size) with 60%N in Y. lia. }
    rewrite holds_cap by exact HO. cbn [obind]. rewrite Nat2N.id.
    assert (B : slice (header_serialize h ++ tag ++ ct ++ rest) prefix_size (prefix_size + length data) = ct ++ []).
    { rewrite app_nil_r, (app_assoc (header_serialize h)).
      apply slice_app3; [rewrite app_length, Len, T; reflexivity|lia]. }
    rewrite B. rewrite <- Hc, <- PW in SE.
    pose proof (decrypt_parsed_eq kdf seal open Rng SEAL k' h tag ct data [] Hok T L Hn SE) as D.
    rewrite D, app_nil_r. reflexivity.
  Qed.

  (** Dumped into a stream and parsed back: the data, and exactly the container is consumed. *)
  Theorem c35_dump_parse : aead_ok seal open -> fill_ok fill ->
    forall k k' th data c th' rest, k_password k' = k_password k -> holds mem (length data) ->
    dump kdf seal Rng fill k th data = Ok (c, th') ->
    parse kdf open Rng mem k' (c ++ rest) = Ok (data, rest).
  Proof.
    intros SEAL FILL k k' th data c th' rest PW HO W. unfold dump in W.
    destruct (encrypt kdf seal Rng fill k th data) as [[[pre ct] t1]|e|] eqn:E; cbn [obind] in W; try discriminate.
    injection W as W1 W2. subst c t1.
    destruct (holds_64 mem _ HO) as [H64 H100].
    destruct (encrypt_inv kdf seal open Rng fill SEAL FILL k th data pre ct th' H64 E)
      as (h & tag & Hok & T & L & Hc & Hn & _ & -> & SE).
    unfold parse. rewrite <- !app_assoc. rewrite prefix_deserialize_from_eq by assumption. cbn [obind p_header].
    rewrite Hn, holds_cap by exact HO. cbn [obind].
    destruct (N.ltb_spec (N.of_nat (length (ct ++ rest))) (N.of_nat (length data))) as [Y|Y].
    { rewrite app_length in Y. lia. }
    rewrite Nat2N.id, read_exact_eq by lia. cbn [obind]. rewrite <- Hc, <- PW in SE.
    pose proof (decrypt_parsed_eq kdf seal open Rng SEAL k' h tag ct data [] Hok T L Hn SE) as D.
    rewrite app_nil_r in D. rewrite D. cbn [obind]. rewrite app_nil_r. reflexivity.
  Qed.

  (** Detached: the prefix decrypts the data in place and leaves what follows it in the buffer alone. *)
  Theorem c35_encrypt_decrypt : aead_ok seal open -> fill_ok fill ->
    forall k k' th data pre ct th' more, k_password k' = k_password k -> holds mem (length data) ->
    encrypt kdf seal Rng fill k th data = Ok ((pre, ct), th') ->
    length pre = 60 /\ decrypt kdf open Rng k' (ct ++ more) pre = Ok (data ++ more).
  Proof.
    intros SEAL FILL k k' th data pre ct th' more PW HO E.
    destruct (holds_64 mem _ HO) as [H64 H100].
    destruct (encrypt_inv kdf seal open Rng fill SEAL FILL k th data pre ct th' H64 E)
      as (h & tag & Hok & T & L & Hc & Hn & _ & -> & SE).
    split; [rewrite app_length, (header_serialize_len h Hok), T; reflexivity|].
    unfold decrypt. rewrite <- (app_nil_r tag) at 1. rewrite prefix_deserialize_eq by assumption. cbn [obind].
    rewrite <- Hc, <- PW in SE.
    exact (decrypt_parsed_eq kdf seal open Rng SEAL k' h tag ct data more Hok T L Hn SE).
  Qed.

  (** The same three facts for the mini container; here the reader needs the same key and cipher. *)
  Theorem c35_mini_wrap_unwrap : aead_ok seal open -> fill_ok fill ->
    forall m m' data c rest, mk_key m' = mk_key m -> c_cipher (mk_config m') = c_cipher (mk_config m) ->
    holds mem (length data) ->
    mini_wrap seal Rng fill m data = Ok c ->
    mini_unwrap open Rng mem m' (c ++ rest) = Ok data.
  Proof.
    intros SEAL FILL m m' data c rest EK EC HO W. unfold mini_wrap in W.
    destruct (mini_encrypt seal Rng fill m data) as [[pre ct]|e|] eqn:E; cbn [obind] in W; try discriminate.
    injection W as W1. subst c.
    destruct (holds_64 mem _ HO) as [H64 H100].
    destruct (mini_encrypt_inv seal open Rng fill SEAL FILL m data pre ct H64 E)
      as (h & tag & Hok & T & L & _ & Hn & -> & SE).
    unfold mini_unwrap. rewrite <- !app_assoc. rewrite mini_prefix_deserialize_eq by assumption. cbn [obind mp_header].
    rewrite Hn. pose proof (mini_serialize_len h Hok) as Len.
    destruct (N.ltb_spec usize_max (N.of_nat mini_prefix_size + N.of_nat (length data))) as [X|X].
    { change (N.of_nat mini_prefix_size) with 36%N in X. lia. }
    destruct (N.ltb_spec (N.of_nat (length (mini_header_serialize h ++ tag ++ ct ++ rest)))
               (N.of_nat mini_prefix_size + N.of_nat (length data))) as [Y|Y].
    { rewrite !app_length, Len, T in Y. change (N.of_nat mini_prefix_size) with 36%N in Y. lia. }
    rewrite holds_cap by exact HO. cbn [obind]. rewrite Nat2N.id.
    assert (B : slice (mini_header_serialize h ++ tag ++ ct ++ rest) mini_prefix_size (mini_prefix_size + length data) = ct ++ []).
    { rewrite app_nil_r, (app_assoc (mini_header_serialize h)).
      apply slice_app3; [rewrite app_length, Len, T; reflexivity|lia]. }
    rewrite B. rewrite <- EK, <- EC in SE.
    pose proof (mini_decrypt_parsed_eq seal open Rng SEAL m' h tag ct data [] Hok T L Hn SE) as D.
    rewrite D, app_nil_r. reflexivity.
  Qed.
  Theorem c35_mini_dump_parse : aead_ok seal open -> fill_ok fill ->
    forall m m' data c rest, mk_key m' = mk_key m -> c_cipher (mk_config m') = c_cipher (mk_config m) ->
    holds mem (length data) ->
    mini_dump seal Rng fill m data = Ok c ->
    length c = 36 + length data /\ mini_parse open Rng mem m' (c ++ rest) = Ok (data, rest).
  Proof.
    intros SEAL FILL m m' data c rest EK EC HO W. unfold mini_dump in W.
    destruct (mini_encrypt seal Rng fill m data) as [[pre ct]|e|] eqn:E; cbn [obind] in W; try discriminate.
    injection W as W1. subst c.
    destruct (holds_64 mem _ HO) as [H64 H100].
    destruct (mini_encrypt_inv seal open Rng fill SEAL FILL m data pre ct H64 E)
      as (h & tag & Hok & T & L & _ & Hn & -> & SE).
    split; [rewrite !app_length, (mini_serialize_len h Hok), T, L; lia|].
    unfold mini_parse. rewrite <- !app_assoc. rewrite mini_prefix_deserialize_from_eq by assumption. cbn [obind mp_header].
    rewrite Hn, holds_cap by exact HO. cbn [obind].
    destruct (N.ltb_spec (N.of_nat (length (ct ++ rest))) (N.of_nat (length data))) as [Y|Y].
    { rewrite app_length in Y. lia. }
    rewrite Nat2N.id, read_exact_eq by lia. cbn [obind]. rewrite <- EK, <- EC in SE.
    pose proof (mini_decrypt_parsed_eq seal open Rng SEAL m' h tag ct data [] Hok T L Hn SE) as D.
    rewrite app_nil_r in D. rewrite D. cbn [obind]. rewrite app_nil_r. reflexivity.
  Qed.

  (** Whatever unwraps was sealed under the password: the 44 bytes as they stand (the reserved byte
      included) are the associated data, and tag and body are what sealing the result produces. *)
  Theorem c35_unwrap_authentic : aead_tight seal open ->
    forall k c data, unwrap kdf open Rng mem k c = Ok data ->
    exists h, header_layout c h /\
      seal (c_cipher (h_config h)) (kdf (h_salt h) (k_password k) (kdf_iterations (h_config h))) (h_nonce h)
        (firstn 44 c) data = Some (slice c 60 (60 + N.to_nat (h_length h)), slice c 44 60).
  Proof.
    intros TI k c data H. unfold unwrap, prefix_deserialize in H.
    destruct (header_deserialize c) as [h|e|] eqn:D; cbn [obind] in H; try discriminate.
    destruct (Nat.ltb_spec (length c) (header_size + tag_size)) as [L|L]; [discriminate|].
    unfold header_size, tag_size in L. cbn [obind p_header] in H.
    destruct (N.ltb _ _); [discriminate|].
    destruct (N.ltb_spec (N.of_nat (length c)) (N.of_nat prefix_size + h_length h)) as [Y|Y]; [discriminate|].
    change (N.of_nat prefix_size) with 60%N in Y.
    unfold with_capacity in H. destruct (_ || _); [discriminate|]. cbn [obind] in H.
    change prefix_size with 60 in H. unfold decrypt_parsed in H. cbn [p_header] in H.
    assert (SL : length (slice c 60 (60 + N.to_nat (h_length h))) = N.to_nat (h_length h))
      by (rewrite slice_len; lia).
    rewrite SL, N2Nat.id, N.ltb_irrefl in H.
    destruct (c_kdf (h_config h)).
    unfold prefix_prefix, prefix_tag in H. cbn [p_raw] in H.
    assert (S44 : length (slice c 0 header_size) = 44) by (rewrite slice_len; unfold header_size; lia).
    assert (R1 : firstn header_size (slice c 0 header_size ++ slice c header_size (header_size + tag_size)) = firstn 44 c).
    { rewrite firstn_exact by (rewrite S44; reflexivity). reflexivity. }
    assert (R2 : slice (slice c 0 header_size ++ slice c header_size (header_size + tag_size)) header_size (header_size + tag_size) = slice c 44 60).
    { rewrite <- (app_nil_r (slice c header_size (header_size + tag_size))).
      apply slice_app3; [rewrite S44; reflexivity|]. rewrite slice_len; unfold header_size, tag_size; lia. }
    rewrite R1, R2 in H.
    rewrite (firstn_all2 _ (Nat.eq_le_incl _ _ SL)), (skipn_all2 _ (Nat.eq_le_incl _ _ SL)) in H.
    exists h. split; [apply header_deserialize_iff; exact D|].
    destruct (open (c_cipher (h_config h)) (kdf (h_salt h) (k_password k) (kdf_iterations (h_config h)))
               (h_nonce h) (firstn 44 c) (slice c 60 (60 + N.to_nat (h_length h))) (slice c 44 60)) as [d|] eqn:O; [|discriminate].
    rewrite app_nil_r in H. assert (d = data) by congruence. subst d.
    apply TI. exact O.
  Qed.
  Theorem c35_mini_unwrap_authentic : aead_tight seal open ->
    forall m c data, mini_unwrap open Rng mem m c = Ok data ->
    exists h, mini_layout c h /\
      seal (c_cipher (mk_config m)) (mk_key m) (m_nonce h) (firstn 20 c) data
      = Some (slice c 36 (36 + N.to_nat (m_length h)), slice c 20 36).
  Proof.
    intros TI m c data H. unfold mini_unwrap, mini_prefix_deserialize in H.
    destruct (mini_header_deserialize c) as [h|e|] eqn:D; cbn [obind] in H; try discriminate.
    destruct (Nat.ltb_spec (length c) mini_prefix_size) as [L|L]; [discriminate|].
    change mini_prefix_size with 36 in L. cbn [obind mp_header] in H.
    destruct (N.ltb _ _); [discriminate|].
    destruct (N.ltb_spec (N.of_nat (length c)) (N.of_nat mini_prefix_size + m_length h)) as [Y|Y]; [discriminate|].
    change (N.of_nat mini_prefix_size) with 36%N in Y.
    unfold with_capacity in H. destruct (_ || _); [discriminate|]. cbn [obind] in H.
    change mini_prefix_size with 36 in H. unfold mini_decrypt_parsed in H. cbn [mp_header] in H.
    assert (SL : length (slice c 36 (36 + N.to_nat (m_length h))) = N.to_nat (m_length h))
      by (rewrite slice_len; lia).
    rewrite SL, N2Nat.id, N.ltb_irrefl in H.
    unfold mini_prefix_prefix, mini_prefix_tag in H. cbn [mp_raw] in H.
    assert (S20 : length (slice c 0 mini_header_size) = 20) by (rewrite slice_len; unfold mini_header_size; lia).
    assert (R1 : firstn mini_header_size (slice c 0 mini_header_size ++ slice c mini_header_size (mini_header_size + tag_size)) = firstn 20 c).
    { rewrite firstn_exact by (rewrite S20; reflexivity). reflexivity. }
    assert (R2 : slice (slice c 0 mini_header_size ++ slice c mini_header_size (mini_header_size + tag_size)) mini_header_size (mini_header_size + tag_size) = slice c 20 36).
    { rewrite <- (app_nil_r (slice c mini_header_size (mini_header_size + tag_size))).
      apply slice_app3; [rewrite S20; reflexivity|]. rewrite slice_len; unfold mini_header_size, tag_size; lia. }
    rewrite R1, R2 in H.
    rewrite (firstn_all2 _ (Nat.eq_le_incl _ _ SL)), (skipn_all2 _ (Nat.eq_le_incl _ _ SL)) in H.
    exists h. split; [apply mini_deserialize_iff; exact D|].
    destruct (open (c_cipher (mk_config m)) (mk_key m) (m_nonce h) (firstn 20 c)
               (slice c 36 (36 + N.to_nat (m_length h))) (slice c 20 36)) as [d|] eqn:O; [|discriminate].
    rewrite app_nil_r in H. assert (d = data) by congruence. subst d.
    apply TI. exact O.
  Qed.

  (** ** C36: nonces *)

  (** One seeded container object seals everything it is given under one key and one nonce. *)
  Theorem c36_seeded_reuse : aead_ok seal open -> fill_ok fill ->
    forall k r th1 th2 d1 d2 c1 c2 th1' th2', k_rng k = RStd r ->
    (N.of_nat (length d1) < 2 ^ 64)%N -> (N.of_nat (length d2) < 2 ^ 64)%N ->
    wrap kdf seal Rng fill k th1 d1 = Ok (c1, th1') -> wrap kdf seal Rng fill k th2 d2 = Ok (c2, th2') ->
    slice c1 8 36 = slice c2 8 36 /\
    exists key nonce,
      seal (c_cipher (k_config k)) key nonce (firstn 44 c1) d1 = Some (skipn 60 c1, slice c1 44 60) /\
      seal (c_cipher (k_config k)) key nonce (firstn 44 c2) d2 = Some (skipn 60 c2, slice c2 44 60).
  Proof.
    intros SEAL FILL k r th1 th2 d1 d2 c1 c2 th1' th2' R L1 L2 W1 W2.
    assert (G : forall th d c th', (N.of_nat (length d) < 2 ^ 64)%N -> wrap kdf seal Rng fill k th d = Ok (c, th') ->
      let s := fst (fill r 16) in let n := fst (fill (snd (fill r 16)) 12) in
      slice c 8 36 = s ++ n /\
      seal (c_cipher (k_config k)) (kdf s (k_password k) (kdf_iterations (k_config k))) n (firstn 44 c) d
      = Some (skipn 60 c, slice c 44 60)).
    { clear - SEAL FILL R. intros th d c th' L W. unfold wrap in W.
      destruct (encrypt kdf seal Rng fill k th d) as [[[pre ct] t1]|e|] eqn:E; cbn [obind] in W; try discriminate.
      injection W as W1 W2. subst c t1.
      destruct (encrypt_inv kdf seal open Rng fill SEAL FILL k th d pre ct th' L E)
        as (h & tag & Hok & T & LC & Hc & Hn & D & -> & SE).
      unfold draw in D. rewrite R in D.
      destruct (fill r 16) as [s r1] eqn:F1. cbn [fst snd]. destruct (fill r1 12) as [n r2] eqn:F2. cbn [fst].
      injection D as D1 D2 _. subst s n. cbv zeta.
      pose proof (header_serialize_len h Hok) as Len.
      split.
      - unfold header_serialize. rewrite <- !app_assoc.
        rewrite (app_assoc magic), (app_assoc (magic ++ _)). rewrite (app_assoc (h_salt h)).
        apply slice_app3; [reflexivity|]. destruct Hok as (A & B & _). rewrite app_length, A, B. reflexivity.
      - rewrite <- app_assoc. rewrite firstn_exact by (rewrite Len; reflexivity).
        assert (X1 : skipn 60 (header_serialize h ++ tag ++ ct) = ct).
        { rewrite app_assoc. apply skipn_exact. rewrite app_length, Len, T. reflexivity. }
        assert (X2 : slice (header_serialize h ++ tag ++ ct) 44 60 = tag).
        { apply slice_app3; [rewrite Len; reflexivity|rewrite T; reflexivity]. }
        rewrite X1, X2. exact SE. }
    destruct (G th1 d1 c1 th1' L1 W1) as (A1 & B1). destruct (G th2 d2 c2 th2' L2 W2) as (A2 & B2).
    cbv zeta in *. split; [congruence|]. eauto.
  Qed.

  (** The same for the mini container, which has no other kind of generator. *)
  Theorem c36_mini_reuse : aead_ok seal open -> fill_ok fill ->
    forall m d1 d2 c1 c2,
    (N.of_nat (length d1) < 2 ^ 64)%N -> (N.of_nat (length d2) < 2 ^ 64)%N ->
    mini_wrap seal Rng fill m d1 = Ok c1 -> mini_wrap seal Rng fill m d2 = Ok c2 ->
    slice c1 0 12 = slice c2 0 12 /\
    seal (c_cipher (mk_config m)) (mk_key m) (slice c1 0 12) (firstn 20 c1) d1 = Some (skipn 36 c1, slice c1 20 36) /\
    seal (c_cipher (mk_config m)) (mk_key m) (slice c1 0 12) (firstn 20 c2) d2 = Some (skipn 36 c2, slice c2 20 36).
  Proof.
    intros SEAL FILL m d1 d2 c1 c2 L1 L2 W1 W2.
    assert (G : forall d c, (N.of_nat (length d) < 2 ^ 64)%N -> mini_wrap seal Rng fill m d = Ok c ->
      slice c 0 12 = fst (fill (mk_rng m) 12) /\
      seal (c_cipher (mk_config m)) (mk_key m) (slice c 0 12) (firstn 20 c) d = Some (skipn 36 c, slice c 20 36)).
    { clear - SEAL FILL. intros d c L W. unfold mini_wrap in W.
      destruct (mini_encrypt seal Rng fill m d) as [[pre ct]|e|] eqn:E; cbn [obind] in W; try discriminate.
      injection W as W1. subst c.
      destruct (mini_encrypt_inv seal open Rng fill SEAL FILL m d pre ct L E)
        as (h & tag & Hok & T & LC & Hnn & Hn & -> & SE).
      pose proof (mini_serialize_len h Hok) as Len.
      assert (X0 : slice ((mini_header_serialize h ++ tag) ++ ct) 0 12 = m_nonce h).
      { unfold mini_header_serialize. rewrite <- !app_assoc.
        apply (slice_app3 []); [reflexivity|]. destruct Hok as (A & _). rewrite A. reflexivity. }
      rewrite X0. split; [exact Hnn|].
      rewrite <- app_assoc. rewrite firstn_exact by (rewrite Len; reflexivity).
      assert (X1 : skipn 36 (mini_header_serialize h ++ tag ++ ct) = ct).
      { rewrite app_assoc. apply skipn_exact. rewrite app_length, Len, T. reflexivity. }
      assert (X2 : slice (mini_header_serialize h ++ tag ++ ct) 20 36 = tag).
      { apply slice_app3; [rewrite Len; reflexivity|rewrite T; reflexivity]. }
      rewrite X1, X2. exact SE. }
    destruct (G d1 c1 L1 W1) as (A1 & B1). destruct (G d2 c2 L2 W2) as (A2 & B2).
    split; [congruence|]. split; [exact B1|]. rewrite A1, <- A2. exact B2.
  Qed.

  (** What this gives away: both ciphers add a keystream, so the sum of two stored bodies is the sum of
      the two pieces of data, byte by byte, without the key. *)
  Theorem c36_mini_leak : aead_ok seal open -> fill_ok fill ->
    forall stream, is_stream seal stream ->
    forall m d1 d2 c1 c2,
    (N.of_nat (length d1) < 2 ^ 64)%N -> (N.of_nat (length d2) < 2 ^ 64)%N ->
    mini_wrap seal Rng fill m d1 = Ok c1 -> mini_wrap seal Rng fill m d2 = Ok c2 ->
    forall i x1 x2, nth_error d1 i = Some x1 -> nth_error d2 i = Some x2 ->
    exists y1 y2, nth_error c1 (36 + i) = Some y1 /\ nth_error c2 (36 + i) = Some y2 /\
      N.lxor y1 y2 = N.lxor x1 x2.
  Proof.
    intros SEAL FILL stream ST m d1 d2 c1 c2 L1 L2 W1 W2 i x1 x2 X1 X2.
    destruct (c36_mini_reuse SEAL FILL m d1 d2 c1 c2 L1 L2 W1 W2) as (_ & S1 & S2).
    assert (SK : forall c : bytes, nth_error c (36 + i) = nth_error (skipn 36 c) i).
    { clear. intros c. generalize 36. intros n. revert c.
      induction n as [|n IH]; intros c; [reflexivity|]. destruct c as [|b c]; [destruct i; reflexivity|].
      cbn [Nat.add nth_error skipn]. apply IH. }
    destruct (SEAL _ _ _ _ _ _ _ S1) as (E1 & _). destruct (SEAL _ _ _ _ _ _ _ S2) as (E2 & _).
    assert (I1 : i < length d1) by (apply nth_error_Some; congruence).
    assert (I2 : i < length d2) by (apply nth_error_Some; congruence).
    destruct (nth_error (skipn 36 c1) i) as [y1|] eqn:Y1; [|apply nth_error_None in Y1; lia].
    destruct (nth_error (skipn 36 c2) i) as [y2|] eqn:Y2; [|apply nth_error_None in Y2; lia].
    exists y1, y2. split; [rewrite SK; exact Y1|]. split; [rewrite SK; exact Y2|].
    rewrite (ST _ _ _ _ _ _ _ S1 i x1 y1 X1 Y1), (ST _ _ _ _ _ _ _ S2 i x2 y2 X2 Y2).
    rewrite (N.lxor_comm x2), N.lxor_assoc, <- (N.lxor_assoc _ _ x2), N.lxor_nilpotent, N.lxor_0_l. reflexivity.
  Qed.

  (** Successive outputs of a generator, as pairs of a salt and a nonce. *)
  Fixpoint outputs (n : nat) (r : Rng) : list bytes :=
    match n with
    | O => []
    | S n' => let (s, r1) := fill r 16 in let (v, r2) := fill r1 12 in (s ++ v) :: outputs n' r2
    end.
  (** A run of wraps with one container object. *)
  Fixpoint wrap_all (k : cocoon Rng) (th : Rng) (ds : list bytes) : out (list bytes * Rng) :=
    match ds with
    | [] => Ok ([], th)
    | d :: r => do (c, th1) <- wrap kdf seal Rng fill k th d;
                do (cs, th2) <- wrap_all k th1 r;
                Ok (c :: cs, th2)
    end.

  (** Containers made with [Cocoon::new] do draw anew each time: in a run of any length the stored
      salts and nonces are the successive outputs of the thread's generator, and so pairwise different
      when that generator does not repeat itself. *)
  Theorem c36_thread_fresh_partial : aead_ok seal open -> fill_ok fill ->
    forall k th ds cs th', k_rng k = RThread ->
    Forall (fun d => (N.of_nat (length d) < 2 ^ 64)%N) ds ->
    wrap_all k th ds = Ok (cs, th') ->
    map (fun c => slice c 8 36) cs = outputs (length ds) th /\
    (NoDup (outputs (length ds) th) -> NoDup (map (fun c => slice c 8 36) cs)).
  Proof.
    intros SEAL FILL k th ds cs th' R F W.
    assert (E : map (fun c => slice c 8 36) cs = outputs (length ds) th).
    { clear - SEAL FILL R F W. revert th cs th' W. induction F as [|d ds L F IH]; intros th cs th' W.
      - cbn in W. injection W as <- _. reflexivity.
      - cbn [wrap_all] in W.
        destruct (wrap kdf seal Rng fill k th d) as [[c t1]|e|] eqn:E; cbn [obind] in W; try discriminate.
        destruct (wrap_all k t1 ds) as [[cs1 t2]|e|] eqn:E2; cbn [obind] in W; try discriminate.
        injection W as <- <-. cbn [length map outputs].
        unfold wrap in E.
        destruct (encrypt kdf seal Rng fill k th d) as [[[pre ct] t1']|e|] eqn:EE; cbn [obind] in E; try discriminate.
        injection E as E3 E4. subst c t1'.
        destruct (encrypt_inv kdf seal open Rng fill SEAL FILL k th d pre ct t1 L EE)
          as (h & tag & Hok & T & LC & Hc & Hn & D & -> & SE).
        unfold draw in D. rewrite R in D.
        destruct (fill th 16) as [s r1]. destruct (fill r1 12) as [n r2].
        injection D as D1 D2 D3. subst s n r2. rewrite (IH _ _ _ E2). f_equal.
        unfold header_serialize. rewrite <- !app_assoc.
        rewrite (app_assoc magic), (app_assoc (magic ++ _)). rewrite (app_assoc (h_salt h)).
        apply slice_app3; [reflexivity|]. destruct Hok as (A & B & _). rewrite app_length, A, B. reflexivity. }
    split; [exact E|]. rewrite E. auto.
  Qed.

  (** ** C51: reading bytes from outside *)

  (** A stream reader stops the program exactly when the length field, which is read before anything is
      authenticated, exceeds what can be allocated. *)
  Theorem c51_mini_parse_stops : forall m input,
    mini_parse open Rng mem m input = Stop <->
    36 <= length input /\ (isize_max < be64_at input 12 \/ mem < be64_at input 12)%N.
  Proof.
    intros m input. unfold mini_parse, mini_prefix_deserialize_from.
    unfold read_exact at 1. destruct (Nat.ltb_spec (length input) mini_header_size) as [L|L];
      unfold mini_header_size in L; cbn [obind].
    { split; [discriminate|]. intros (A & _). lia. }
    assert (D : mini_header_deserialize (firstn mini_header_size input ++ repeat 0%N tag_size)
                = Ok {| m_nonce := slice input 0 12; m_length := be64_at input 12 |}).
    { assert (FL : length (firstn 20 input) = 20) by (rewrite firstn_length; lia).
      apply mini_deserialize_iff. unfold mini_layout. cbn [m_nonce m_length].
      unfold mini_header_size, tag_size.
      assert (Q : forall i, i < 20 -> nth_error (firstn 20 input ++ repeat 0%N 16) i = nth_error input i).
      { intros i Hi. rewrite nth_error_app1 by lia. apply nth_error_first. exact Hi. }
      split; [rewrite app_length; lia|]. split; [rewrite slice_len; lia|]. split.
      - intros j x X. assert (j < 12).
        { assert (j < length (slice input 0 12)) by (apply nth_error_Some; congruence). rewrite slice_len in *; lia. }
        rewrite nth_error_slice in X by lia. rewrite Q by lia. exact X.
      - rewrite !be64_at_slice by (rewrite ?app_length; lia). f_equal. apply nth_error_same.
        + rewrite !slice_len; rewrite ?app_length; lia.
        + intros i Hi. rewrite slice_len in Hi by lia. rewrite !nth_error_slice by lia. symmetry. apply Q. lia. }
    rewrite D. cbn [obind]. unfold read_exact at 1. rewrite skipn_length.
    destruct (Nat.ltb_spec (length input - mini_header_size) tag_size) as [L2|L2];
      unfold mini_header_size, tag_size in L2; cbn [obind].
    { split; [discriminate|]. intros (A & _). lia. }
    cbn [mp_header m_length]. unfold with_capacity.
    destruct (N.ltb_spec isize_max (be64_at input 12)) as [A|A]; cbn [orb obind].
    { split; [intros _; split; [lia|left; exact A]|reflexivity]. }
    destruct (N.ltb_spec mem (be64_at input 12)) as [B|B]; cbn [obind].
    { split; [intros _; split; [lia|right; exact B]|reflexivity]. }
    split; [|intros (_ & [X|X]); lia].
    destruct (N.ltb _ _); [discriminate|].
    destruct (read_exact _ _) as [[body i2]|e|] eqn:RE; cbn [obind]; try discriminate.
    - unfold mini_decrypt_parsed. destruct (N.ltb _ _); [discriminate|]. destruct (open _ _ _ _ _ _); discriminate.
    - unfold read_exact in RE. destruct (Nat.ltb _ _); discriminate.
  Qed.

  (** The slice reader checks the length against the container first, with an addition that overflows:
      for a container held in memory it stops exactly for the last 36 (full container: 60) lengths. *)
  Theorem c51_mini_unwrap_stops : forall m c, holds mem (length c) ->
    (mini_unwrap open Rng mem m c = Stop <-> 36 <= length c /\ (usize_max < 36 + be64_at c 12)%N).
  Proof.
    intros m c HO. unfold mini_unwrap, mini_prefix_deserialize.
    destruct (mini_header_deserialize c) as [h|e|] eqn:D; cbn [obind].
    2:{ unfold mini_header_deserialize in D. destruct (Nat.ltb_spec (length c) mini_header_size) as [L|L]; [|discriminate].
        unfold mini_header_size in L. split; [discriminate|]. intros (A & _). lia. }
    2:{ unfold mini_header_deserialize in D. destruct (Nat.ltb _ _); discriminate. }
    apply mini_deserialize_iff in D. destruct D as (_ & _ & _ & G).
    destruct (Nat.ltb_spec (length c) mini_prefix_size) as [L|L]; change mini_prefix_size with 36 in L; cbn [obind].
    { split; [discriminate|]. intros (A & _). lia. }
    cbn [mp_header]. change (N.of_nat mini_prefix_size) with 36%N. rewrite <- G.
    destruct (N.ltb_spec usize_max (36 + m_length h)) as [X|X].
    { split; [intros _; split; [exact L|exact X]|reflexivity]. }
    split; [|intros (_ & Y); lia].
    destruct (N.ltb_spec (N.of_nat (length c)) (36 + m_length h)) as [Y|Y]; [discriminate|].
    unfold with_capacity. destruct HO as [H1 H2].
    destruct (N.ltb_spec isize_max (m_length h)) as [A|A]; [lia|].
    destruct (N.ltb_spec mem (m_length h)) as [B|B]; [lia|]. cbn [orb obind].
    unfold mini_decrypt_parsed. destruct (N.ltb _ _); [discriminate|]. destruct (open _ _ _ _ _ _); discriminate.
  Qed.
  Theorem c51_unwrap_stops : forall k c, holds mem (length c) ->
    (unwrap kdf open Rng mem k c = Stop <->
     60 <= length c /\ (exists h, header_layout c h) /\ (usize_max < 60 + be64_at c 36)%N).
  Proof.
    intros k c HO. unfold unwrap, prefix_deserialize.
    destruct (header_deserialize c) as [h|e|] eqn:D; cbn [obind].
    2:{ split; [discriminate|]. intros (_ & (h & A) & _). apply header_deserialize_iff in A. congruence. }
    2:{ destruct (header_deserialize_err c) as [[h E]|E]; congruence. }
    pose proof D as D'. apply header_deserialize_iff in D'.
    assert (G : h_length h = be64_at c 36) by (apply D').
    destruct (Nat.ltb_spec (length c) (header_size + tag_size)) as [L|L]; change (header_size + tag_size) with 60 in L; cbn [obind].
    { split; [discriminate|]. intros (A & _). lia. }
    cbn [p_header]. change (N.of_nat prefix_size) with 60%N. rewrite <- G.
    destruct (N.ltb_spec usize_max (60 + h_length h)) as [X|X].
    { split; [intros _; split; [exact L|split; [exists h; exact D'|exact X]]|reflexivity]. }
    split; [|intros (_ & _ & Y); lia].
    destruct (N.ltb_spec (N.of_nat (length c)) (60 + h_length h)) as [Y|Y]; [discriminate|].
    unfold with_capacity. destruct HO as [H1 H2].
    destruct (N.ltb_spec isize_max (h_length h)) as [A|A]; [lia|].
    destruct (N.ltb_spec mem (h_length h)) as [B|B]; [lia|]. cbn [orb obind].
    unfold decrypt_parsed. destruct (N.ltb _ _); [discriminate|]. destruct (open _ _ _ _ _ _); discriminate.
  Qed.
  Lemma header_layout_ext : forall a b h, 44 <= length b ->
    (forall i, i < 44 -> nth_error a i = nth_error b i) -> header_layout a h -> header_layout b h.
  Proof.
    clear. intros a b h LB Q (La & F0 & V & C & K & W & LS & FS & LN & FN & L).
    assert (FE : forall i f, i + length f <= 44 -> field a i f -> field b i f).
    { intros i f B F j x X. assert (j < length f) by (apply nth_error_Some; congruence).
      rewrite <- Q by lia. exact (F j x X). }
    split; [exact LB|]. split; [apply FE; [cbn; lia|exact F0]|].
    split; [rewrite <- Q by lia; exact V|]. split; [rewrite <- Q by lia; exact C|].
    split; [rewrite <- Q by lia; exact K|]. split; [rewrite <- Q by lia; exact W|].
    split; [exact LS|]. split; [apply FE; [lia|exact FS]|]. split; [exact LN|]. split; [apply FE; [lia|exact FN]|].
    rewrite L, !be64_at_slice by lia. f_equal. apply nth_error_same.
    - rewrite !slice_len; lia.
    - intros i Hi. rewrite slice_len in Hi by lia. rewrite !nth_error_slice by lia. apply Q. lia.
  Qed.
  (** The stream reader of full containers: as for mini containers, behind a readable header. *)
  Theorem c51_parse_stops : forall k input,
    parse kdf open Rng mem k input = Stop <->
    60 <= length input /\ (exists h, header_layout input h) /\
    (isize_max < be64_at input 36 \/ mem < be64_at input 36)%N.
  Proof.
    intros k input. unfold parse, prefix_deserialize_from.
    unfold read_exact at 1. destruct (Nat.ltb_spec (length input) header_size) as [L|L];
      unfold header_size in L; cbn [obind].
    { split; [discriminate|]. intros (A & _). lia. }
    set (hd := firstn header_size input ++ repeat 0%N tag_size).
    assert (Q : forall i, i < 44 -> nth_error hd i = nth_error input i).
    { intros i Hi. unfold hd, header_size. rewrite nth_error_app1 by (rewrite firstn_length; lia).
      apply nth_error_first. exact Hi. }
    assert (LH : 44 <= length hd).
    { unfold hd, header_size, tag_size. rewrite app_length, firstn_length, repeat_length. lia. }
    destruct (header_deserialize_err hd) as [[h D]|D]; rewrite D; cbn [obind].
    2:{ split; [discriminate|]. intros (_ & (h & A) & _).
        assert (header_layout hd h) as B by (apply (header_layout_ext input hd h LH); [intros i Hi; symmetry; apply Q; exact Hi|exact A]).
        apply header_deserialize_iff in B. congruence. }
    apply header_deserialize_iff in D. pose proof (header_layout_ext hd input h L Q D) as D'.
    assert (G : h_length h = be64_at input 36) by (apply D').
    unfold read_exact at 1. rewrite skipn_length.
    destruct (Nat.ltb_spec (length input - header_size) tag_size) as [L2|L2];
      unfold header_size, tag_size in L2; cbn [obind].
    { split; [discriminate|]. intros (A & _). lia. }
    cbn [p_header]. unfold with_capacity. rewrite G.
    destruct (N.ltb_spec isize_max (be64_at input 36)) as [A|A]; cbn [orb obind].
    { split; [intros _; split; [lia|split; [exists h; exact D'|left; exact A]]|reflexivity]. }
    destruct (N.ltb_spec mem (be64_at input 36)) as [B|B]; cbn [obind].
    { split; [intros _; split; [lia|split; [exists h; exact D'|right; exact B]]|reflexivity]. }
    split; [|intros (_ & _ & [X|X]); lia].
    destruct (N.ltb _ _); [discriminate|].
    destruct (read_exact _ _) as [[body i2]|e|] eqn:RE; cbn [obind]; try discriminate.
    - unfold decrypt_parsed. destruct (N.ltb _ _); [discriminate|]. destruct (open _ _ _ _ _ _); discriminate.
    - unfold read_exact in RE. destruct (Nat.ltb _ _); discriminate.
  Qed.
End Containers.

(* ------------------------------------------------------------------------------------------- *)
(** * Runs and witnesses *)

Definition ex_password : bytes := [112; 97; 115; 115]%N.
Definition ex_k : cocoon N := cocoon_from_seed N t_from_seed ex_password (repeat 0%N 32).
Definition ex_m : mini N := {| mk_key := t_kdf (repeat 0%N 32) ex_password 100000; mk_rng := t_from_seed (repeat 0%N 32);
                               mk_config := default_config |}.
Definition ex_mem : N := (2 ^ 40)%N.

(** The hypotheses of the round-trip, authenticity and stream theorems hold for this cipher, and the
    calls succeed. *)
Example c35_run :
  aead_ok t_seal t_open /\ aead_tight t_seal t_open /\ is_stream t_seal t_stream /\ fill_ok t_fill /\
  holds ex_mem 3 /\
  (exists c, wrap t_kdf t_seal N t_fill ex_k 9%N [1; 2; 3]%N = Ok (c, 9%N) /\ length c = 63 /\
     unwrap t_kdf t_open N ex_mem (cocoon_parse_only N ex_password) (c ++ [5]%N) = Ok [1; 2; 3]%N /\
     parse t_kdf t_open N ex_mem ex_k (c ++ [5]%N) = Ok ([1; 2; 3]%N, [5]%N) /\
     unwrap t_kdf t_open N ex_mem (cocoon_parse_only N (0%N :: ex_password)) c = Err Cryptography /\
     unwrap t_kdf t_open N ex_mem ex_k (firstn 62 c) = Err TooShort /\
     unwrap t_kdf t_open N ex_mem ex_k (firstn 7 c ++ [77%N] ++ skipn 8 c) = Err Cryptography) /\
  mini_from_password t_kdf N t_from_seed ex_password (repeat 0%N 32) = Ok ex_m /\
  (exists c, mini_wrap t_seal N t_fill ex_m [1; 2; 3]%N = Ok c /\ length c = 39 /\
     mini_unwrap t_open N ex_mem ex_m c = Ok [1; 2; 3]%N /\
     mini_parse t_open N ex_mem ex_m (c ++ [5]%N) = Ok ([1; 2; 3]%N, [5]%N)).
Proof.
  split; [exact t_aead|]. split; [exact t_tight|]. split; [exact t_is_stream|]. split; [exact t_fill_ok|].
  split; [split; vm_compute; discriminate|].
  split.
  { eexists. split; [vm_compute; reflexivity|]. split; [vm_compute; reflexivity|].
    split; [vm_compute; reflexivity|]. split; [vm_compute; reflexivity|]. split; [vm_compute; reflexivity|].
    split; vm_compute; reflexivity. }
  split; [vm_compute; reflexivity|].
  eexists. split; [vm_compute; reflexivity|]. split; [vm_compute; reflexivity|]. split; vm_compute; reflexivity.
Qed.

(** C36 does not hold: one seeded object, two different pieces of data, the same salt and nonce (and, as
    key and nonce agree, bodies whose sum is the sum of the data). *)
Theorem c36_refuted : exists (k : cocoon N) d1 d2 c1 c2,
  d1 <> d2 /\
  wrap t_kdf t_seal N t_fill k 0%N d1 = Ok (c1, 0%N) /\ wrap t_kdf t_seal N t_fill k 0%N d2 = Ok (c2, 0%N) /\
  slice c1 8 36 = slice c2 8 36 /\
  nth 60 c1 0%N <> nth 0 d1 0%N /\ N.lxor (nth 60 c1 0%N) (nth 60 c2 0%N) = N.lxor (nth 0 d1 0%N) (nth 0 d2 0%N).
Proof.
  exists ex_k, [1; 2; 3]%N, [77; 2]%N. do 2 eexists.
  split; [discriminate|]. split; [vm_compute; reflexivity|]. split; [vm_compute; reflexivity|].
  split; [vm_compute; reflexivity|]. split; vm_compute; [discriminate|reflexivity].
Qed.
Theorem c36_mini_refuted : exists (m : mini N) d1 d2 c1 c2,
  d1 <> d2 /\ mini_wrap t_seal N t_fill m d1 = Ok c1 /\ mini_wrap t_seal N t_fill m d2 = Ok c2 /\
  slice c1 0 12 = slice c2 0 12.
Proof.
  exists ex_m, [1; 2; 3]%N, [77; 2]%N. do 2 eexists.
  split; [discriminate|]. split; [vm_compute; reflexivity|]. split; vm_compute; reflexivity.
Qed.
(** A run with the thread's generator, as in the hypotheses of [c36_thread_fresh_partial]. *)
Example c36_thread_run : exists cs th',
  wrap_all t_kdf t_seal N t_fill (cocoon_new N ex_password) 5%N [[1]; [2; 2]; []]%N = Ok (cs, th') /\
  NoDup (outputs N t_fill 3 5%N) /\ length cs = 3.
Proof.
  do 2 eexists. split; [vm_compute; reflexivity|]. split; [|vm_compute; reflexivity].
  vm_compute. repeat constructor; cbn [In]; intuition discriminate.
Qed.

(** C51 does not hold: 36 bytes that no one holding the key has produced stop the stream reader, and 60
    stop the slice reader. *)
Theorem c51_refuted : exists input c,
  mini_parse t_open N ex_mem ex_m input = Stop /\ mini_unwrap t_open N ex_mem ex_m input = Stop /\
  parse t_kdf t_open N ex_mem ex_k c = Stop /\ unwrap t_kdf t_open N ex_mem ex_k c = Stop.
Proof.
  exists (repeat 255%N 36), ([127; 192; 10; 1; 1; 1; 1; 0]%N ++ repeat 255%N 52).
  split; [vm_compute; reflexivity|]. split; [vm_compute; reflexivity|]. split; vm_compute; reflexivity.
Qed.
(** Both sides of the characterisations occur. *)
Example c51_examples :
  mini_parse t_open N ex_mem ex_m (repeat 0%N 36) = Err Cryptography /\
  mini_parse t_open N ex_mem ex_m (repeat 255%N 35) = Err TooShort /\
  mini_unwrap t_open N ex_mem ex_m (repeat 100%N 36) = Err TooShort /\
  mini_parse t_open N ex_mem ex_m (repeat 100%N 36) = Stop /\ holds ex_mem 36.
Proof. split; [vm_compute; reflexivity|]. split; [vm_compute; reflexivity|]. split; [vm_compute; reflexivity|].
  split; [vm_compute; reflexivity|]. split; vm_compute; discriminate. Qed.

Print Assumptions c35_header_accepts.
Print Assumptions c35_mini_header_accepts.
Print Assumptions c35_header_round_trip.
Print Assumptions c35_mini_header_round_trip.
Print Assumptions c35_header_rejects.
Print Assumptions c35_header_canonical.
Print Assumptions c35_wrap_unwrap.
Print Assumptions c35_dump_parse.
Print Assumptions c35_encrypt_decrypt.
Print Assumptions c35_mini_wrap_unwrap.
Print Assumptions c35_mini_dump_parse.
Print Assumptions c35_unwrap_authentic.
Print Assumptions c35_mini_unwrap_authentic.
Print Assumptions c36_seeded_reuse.
Print Assumptions c36_mini_reuse.
Print Assumptions c36_mini_leak.
Print Assumptions c36_thread_fresh_partial.
Print Assumptions c36_refuted.
Print Assumptions c36_mini_refuted.
Print Assumptions c51_mini_parse_stops.
Print Assumptions c51_mini_unwrap_stops.
Print Assumptions c51_unwrap_stops.
Print Assumptions c51_refuted.
Print Assumptions c51_parse_stops.
