(** Properties C30-C33 and C47: the codec and the encodings of transfer posts. *)
From Coq Require Import List NArith Arith Bool Lia.
From Verif Require Import CodecModel CodecLemmas.
Import ListNotations.
Open Scope N_scope.

(** C30. Encoding a value in memory and decoding it, from a slice, a vector or an io
    source, with any bytes following, returns the value and exactly the following bytes. *)
Theorem c30_round_trip : forall size_of t k v rest bs,
  k <> KArr -> decodable t = true -> cwf t v -> fits size_of t v ->
  to_vec t v = Some bs ->
  dec size_of t (Rdr k (bs ++ rest)) = Ok (v, Rdr k rest).
Proof.
  intros size_of t k v rest bs K D W F E. rewrite to_vec_bytes in E. injection E as <-.
  apply round_trip; auto.
Qed.

(** C30. Encodings are prefix-free and unambiguous, for every type, also [bool],
    [Option] and [Result]. *)
Theorem c30_prefix_free : forall t v w bv bw r1 r2,
  cwf t v -> cwf t w -> to_vec t v = Some bv -> to_vec t w = Some bw ->
  bv ++ r1 = bw ++ r2 -> v = w /\ r1 = r2.
Proof.
  intros t v w bv bw r1 r2 Wv Ww E1 E2. rewrite to_vec_bytes in E1, E2. injection E1 as <-. injection E2 as <-.
  apply pf; auto.
Qed.

(** C30. Whatever decodes is the encoding of the result followed by the unread bytes, and
    the result is a value of the type. *)
Theorem c30_decode_canonical : forall size_of t k bs v r,
  k <> KArr -> decodable t = true -> Forall (fun b => b < 256) bs ->
  dec size_of t (Rdr k bs) = Ok (v, r) ->
  cwf t v /\ exists e rest, to_vec t v = Some e /\ bs = e ++ rest /\ r = Rdr k rest.
Proof.
  intros size_of t k bs v r K D B E.
  destruct (dec_canonical size_of k t K D bs v r B E) as (rest & -> & -> & W & _).
  split; auto. exists (bytes t v), rest. rewrite to_vec_bytes. auto.
Qed.

(** C30. A truncated encoding never decodes. *)
Theorem c30_truncation_fails : forall size_of t k v p q,
  k <> KArr -> decodable t = true -> cwf t v -> to_vec t v = Some (p ++ q) -> q <> [] ->
  Forall (fun b => b < 256) (p ++ q) ->
  forall w r, dec size_of t (Rdr k p) <> Ok (w, r).
Proof.
  intros size_of t k v p q K D W E Q B w r F.
  destruct (c30_decode_canonical size_of t k p w r K D) as (Ww & e & rest & E2 & -> & _); auto.
  { apply Forall_app in B. apply B. }
  destruct (c30_prefix_free t v w _ _ [] (rest ++ q) W Ww E E2) as [_ N].
  - rewrite app_nil_r, <- app_assoc. reflexivity.
  - symmetry in N. apply app_eq_nil in N. tauto.
Qed.

(** C31, negated for every value: no [Option] and no [Result] survives the round trip. *)
Theorem c31_option_never_round_trips : forall size_of t k v rest bs,
  k <> KArr -> to_vec (COpt t) v = Some bs ->
  forall r, dec size_of (COpt t) (Rdr k (bs ++ rest)) <> Ok (v, r).
Proof.
  intros size_of t k v rest bs K E r F. rewrite to_vec_bytes in E. injection E as <-.
  pose proof (option_swapped size_of t k v rest K) as Q. rewrite F in Q. congruence.
Qed.
Theorem c31_result_never_round_trips : forall size_of a b k v rest bs,
  k <> KArr -> to_vec (CRes a b) v = Some bs ->
  forall r, dec size_of (CRes a b) (Rdr k (bs ++ rest)) <> Ok (v, r).
Proof.
  intros size_of a b k v rest bs K E r F. rewrite to_vec_bytes in E. injection E as <-.
  pose proof (result_swapped size_of a b k v rest K) as Q. rewrite F in Q. congruence.
Qed.

(** C31. [Some v] decodes to [None] without an error. *)
Theorem c31_some_decodes_to_none : forall size_of t k v rest bs,
  k <> KArr -> to_vec (COpt t) (Some v) = Some bs ->
  exists r, dec size_of (COpt t) (Rdr k (bs ++ rest)) = Ok (None, r).
Proof.
  intros size_of t k v rest bs K E. rewrite to_vec_bytes in E. injection E as <-.
  eexists. unfold bytes. cbn [enc concat le app CodecModel.dec]. change (1 mod 256) with 1.
  rewrite dec_int_1 by (auto; lia). reflexivity.
Qed.

(** C32. What [write] does, on every writer that does not panic: the bytes taken from
    the front of the input are appended (or, for a fixed buffer, stored), and the count
    is their number.  For buffers and io writers the input left is the rest. *)
Theorem c32_write_accounts_partial : forall w input w' rest n,
  write w input = Some (w', rest, n) ->
  (forall b, w <> WVec b) ->
  (n <= length input)%nat /\ rest = skipn n input /\
  match w, w' with
  | WBuf b, WBuf b' => b' = firstn n input /\ n = length b
  | WIo b, WIo b' => b' = b ++ input /\ n = length input
  | _, _ => False
  end.
Proof.
  intros w input w' rest n E V. destruct w as [b|b|b]; [destruct (V b); auto| |].
  - rewrite write_buf in E. destruct (Nat.ltb_spec (length input) (length b)); [discriminate|].
    injection E as <- <- <-. auto.
  - cbn in E. injection E as <- <- <-. rewrite skipn_all. auto.
Qed.

(** C32, negated for every vector: all bytes are written, and all are still reported as
    unwritten; a caller looping until the input is consumed never ends. *)
Theorem c32_vec_write_never_resets_input : forall b input, input <> [] ->
  exists rest, write (WVec b) input = Some (WVec (b ++ input), rest, length input) /\
    rest <> skipn (length input) input.
Proof.
  intros b input H. exists input. split; auto. rewrite skipn_all. auto.
Qed.

(** C32. A vector is drained correctly by [write_drain], on every writer. *)
Theorem c32_write_drain : forall w input w' rest n,
  write_drain w input = Some (w', rest, n) ->
  (n <= length input)%nat /\ rest = skipn n input /\
  match w, w' with
  | WBuf b, WBuf b' => b' = firstn n input /\ n = length b
  | WIo b, WIo b' => b' = b ++ input /\ n = length input
  | WVec b, WVec b' => b' = b ++ input /\ n = length input
  | _, _ => False
  end.
Proof.
  intros w input w' rest n E. destruct w as [b|b|b].
  - cbn in E. injection E as <- <- <-. rewrite skipn_all. auto.
  - unfold write_drain, write_ref in E. rewrite write_buf in E.
    destruct (Nat.ltb_spec (length input) (length b)); [discriminate|]. injection E as <- <- <-.
    rewrite skipn_length. replace (length input - (length input - length b))%nat with (length b) by lia. auto.
  - unfold write_drain, write_ref in E. cbn [write firstn length] in E. injection E as <- <- <-.
    rewrite Nat.sub_0_r, skipn_all. auto.
Qed.

(** C32. Exact-size encoding round-trips for integers (one write). *)
Theorem c32_exact_size_int : forall size_of k v, v < 256 ^ N.of_nat k ->
  exists a, to_array (CInt k) k v = Some a /\ length a = k /\ from_array size_of (CInt k) a = Some v.
Proof.
  intros size_of k v Hv. exists (le k v).
  unfold to_array. cbn [enc]. rewrite write_parts_buf, repeat_length. cbn [forallb rev app].
  rewrite le_length, Nat.leb_refl. cbn [andb option_map wbytes]. split.
  { f_equal. apply firstn_le. }
  split; [reflexivity|].
  unfold from_array. cbn [dec]. unfold dec_int, read_exact. cbn [rbytes]. rewrite le_length, Nat.ltb_irrefl.
  rewrite firstn_le, from_le_le by auto. reflexivity.
Qed.

(** C32, negated for values written in several parts: for every structure of two
    integers of positive sizes, encoding into a buffer of the exact size panics. *)
Theorem c32_exact_size_parts_panic : forall j k v w, (0 < j)%nat -> (0 < k)%nat ->
  to_array (CPair (CInt j) (CInt k)) (j + k) (v, w) = None.
Proof.
  intros j k v w Hj Hk. unfold to_array. cbn [enc fst snd app]. rewrite write_parts_buf, repeat_length.
  cbn [forallb]. rewrite !le_length.
  replace (j + k <=? j)%nat with false by (symmetry; apply Nat.leb_gt; lia). reflexivity.
Qed.

(** C32, negated for array readers: decoding two integers from an array returns the
    first one twice. *)
Theorem c32_array_reader_repeats : forall size_of k v w, v < 256 ^ N.of_nat k -> w < 256 ^ N.of_nat k -> v <> w ->
  exists a, to_vec (CPair (CInt k) (CInt k)) (v, w) = Some a /\
    from_array size_of (CPair (CInt k) (CInt k)) a = Some (v, v).
Proof.
  intros size_of k v w Hv Hw N. eexists. split; [apply to_vec_bytes|].
  unfold bytes, from_array. cbn [enc fst snd app concat dec]. rewrite app_nil_r.
  assert (D : dec_int k (Rdr KArr (le k v ++ le k w)) = Ok (v, Rdr KArr (le k v ++ le k w))).
  { unfold dec_int, read_exact, advance. cbn [rbytes rk]. rewrite app_length, !le_length.
    replace (k + k <? k)%nat with false by (symmetry; apply Nat.ltb_ge; lia).
    rewrite firstn_app, le_length, Nat.sub_diag, app_nil_r.
    rewrite firstn_le, from_le_le by auto. reflexivity. }
  rewrite D, D. reflexivity.
Qed.

(** C33. Two posts with the same encoding have the same signature and body. *)
Theorem c33_post_encoding_partial : forall T p q, wf_post T p -> wf_post T q ->
  concat (enc_post T p) = concat (enc_post T q) ->
  p_auth T p = p_auth T q /\ p_body T p = p_body T q.
Proof.
  intros T p q Wp Wq E. destruct (enc_post_pf T p q [] [] Wp Wq) as (A & B & _); auto.
  rewrite !app_nil_r. auto.
Qed.

(** C33. The message that is signed does determine body and sink accounts. *)
Theorem c33_signed_message_injective : forall T b1 a1 b2 a2,
  wf_body T b1 -> wf_body T b2 -> cwf (CVec (t_account T)) a1 -> cwf (CVec (t_account T)) a2 ->
  concat (enc_signed T b1 a1) = concat (enc_signed T b2 a2) -> b1 = b2 /\ a1 = a2.
Proof.
  intros T b1 a1 b2 a2 W1 W2 V1 V2 E.
  destruct (enc_signed_pf T b1 a1 b2 a2 [] [] W1 W2 V1 V2) as (A & B & _); auto.
  rewrite !app_nil_r. auto.
Qed.

(** C47. Decoding types without vectors never panics, whatever the bytes. *)
Theorem c47_decode_no_panic_partial : forall size_of t r, vec_free t = true -> dec size_of t r <> Panic.
Proof. intros. apply dec_no_panic. auto. Qed.

(** C47, negated for vectors: eight bytes make the decoder of any vector of a type with
    non-zero size panic. *)
Theorem c47_vec_decode_panics : forall size_of t k, 0 < size_of t -> k <> KArr ->
  exists bs, length bs = 8%nat /\ Forall (fun b => b < 256) bs /\ dec size_of (CVec t) (Rdr k bs) = Panic.
Proof.
  intros size_of t k S0 K. exists (repeat 255 8). split; [reflexivity|]. split.
  { apply Forall_forall. intros x Hx. apply repeat_spec in Hx. lia. }
  cbn [dec]. replace (dec_int 8 (Rdr k (repeat 255 8))) with (@Ok derr _ (18446744073709551615, Rdr k [])).
  2: { destruct k; try reflexivity. congruence. }
  destruct (N.leb_spec (2 ^ 63) (18446744073709551615 * size_of t)); auto. exfalso.
  change (2 ^ 63) with 9223372036854775808 in *. nia.
Qed.

Print Assumptions c30_round_trip.
Print Assumptions c30_prefix_free.
Print Assumptions c30_decode_canonical.
Print Assumptions c30_truncation_fails.
Print Assumptions c31_option_never_round_trips.
Print Assumptions c31_result_never_round_trips.
Print Assumptions c31_some_decodes_to_none.
Print Assumptions c32_write_accounts_partial.
Print Assumptions c32_vec_write_never_resets_input.
Print Assumptions c32_write_drain.
Print Assumptions c32_exact_size_int.
Print Assumptions c32_exact_size_parts_panic.
Print Assumptions c32_array_reader_repeats.
Print Assumptions c33_post_encoding_partial.
Print Assumptions c33_signed_message_injective.
Print Assumptions c47_decode_no_panic_partial.
Print Assumptions c47_vec_decode_panics.

(** Non-vacuity. *)
Definition x_ty := CPair (CVec (CPair (CInt 2) (CArr 3 (CInt 1)))) (CInt 4).
Definition x_val : cval x_ty := ([(258, [1; 2; 3]); (65535, [4; 5; 6])], 77).
Example ex_c30_hyps : decodable x_ty = true /\ cwf x_ty x_val /\ fits (fun _ => 8) x_ty x_val.
Proof.
  unfold x_ty, x_val. repeat split; cbn; try lia; repeat constructor; cbn; try lia; repeat constructor; cbn; lia.
Qed.
Example ex_c30 : to_vec x_ty x_val = Some [2;0;0;0;0;0;0;0; 2;1;1;2;3; 255;255;4;5;6; 77;0;0;0].
Proof. reflexivity. Qed.
Example ex_c30_dec : dec (fun _ => 8) x_ty (Rdr KSlice [2;0;0;0;0;0;0;0; 2;1;1;2;3; 255;255;4;5;6; 77;0;0;0; 9]) =
  Ok (x_val, Rdr KSlice [9]).
Proof. reflexivity. Qed.
Example ex_c31 : to_vec (COpt (CInt 1)) (Some 5) = Some [1; 5] /\
  dec (fun _ => 1) (COpt (CInt 1)) (Rdr KSlice [1; 5]) = Ok (None, Rdr KSlice [5]) /\
  dec (fun _ => 1) (COpt (CInt 1)) (Rdr KSlice [0]) = Err (DSome DUnit).
Proof. repeat split. Qed.
Example ex_c32 : write (WBuf [0; 0]) [1; 2; 3] = Some (WBuf [1; 2], [3], 2%nat) /\
  write (WBuf [0; 0]) [1] = None /\ write (WIo [7]) [1; 2] = Some (WIo [7; 1; 2], [], 2%nat).
Proof. repeat split. Qed.
(** Fixed-size keys and digests as in the concrete configuration. *)
Definition x_types := PTypes (CArr 32 (CInt 1)) (CInt 16) (CArr 2 (CInt 1)) (CArr 2 (CInt 1)) CUnit
  (CArr 2 (CInt 1)) (CInt 1) CUnit CUnit (CArr 2 (CInt 1)) (CArr 2 (CInt 1)) (CArr 2 (CInt 1)) (CArr 2 (CInt 1)).
Definition x_post accounts := PPost x_types (Some ([1; 2], [3; 4]))
  (PBody x_types (Some (repeat 9 32)) [] [([1; 2], ([3; 4], tt))]
    [((false, ((repeat 0 32, 0), [8; 8])), (5, (tt, tt)))] [1000] [6; 6]) accounts.
(** ** Refutations, with witnesses. *)
Theorem c31_round_trip_refuted : exists (t : cty) (v : cval t) bs, cwf t v /\ to_vec t v = Some bs /\
  forall r, dec (fun _ => 1) t (Rdr KSlice bs) <> Ok (v, r).
Proof.
  exists (COpt (CInt 1)), (Some 5), [1; 5]. split; [cbn; lia|]. split; [vm_compute; reflexivity|].
  intros r H. vm_compute in H. discriminate.
Qed.

Theorem c32_write_resets_input_refuted : exists w input w' rest n,
  write w input = Some (w', rest, n) /\ rest <> skipn n input.
Proof. exists (WVec []), [1], (WVec [1]), [1], 1%nat. split; [reflexivity|]. vm_compute. discriminate. Qed.

Theorem c32_exact_size_refuted : exists (t : cty) (v : cval t) bs, cwf t v /\ to_vec t v = Some bs /\
  to_array t (length bs) v = None.
Proof.
  exists (CArr 2 (CInt 1)), [1; 2], [1; 2]. split.
  - split; [reflexivity|]. repeat constructor.
  - split; vm_compute; reflexivity.
Qed.

Theorem c33_post_encoding_refuted : exists T p q, wf_post T p /\ wf_post T q /\ p <> q /\
  concat (enc_post T p) = concat (enc_post T q).
Proof.
  exists x_types, (x_post [[1; 1]]), (x_post [[2; 2]]).
  repeat split; try discriminate; cbn; try lia; repeat constructor; cbn; try lia; repeat constructor; cbn; try lia; repeat constructor; cbn; lia.
Qed.

Theorem c47_decode_no_panic_refuted : exists t bs, Forall (fun b => b < 256) bs /\
  dec (fun _ => 1) t (Rdr KSlice bs) = Panic.
Proof.
  exists (CVec (CInt 1)), (repeat 255 8). split; [|vm_compute; reflexivity].
  apply Forall_forall. intros x Hx. apply repeat_spec in Hx. lia.
Qed.

Print Assumptions c31_round_trip_refuted.
Print Assumptions c32_write_resets_input_refuted.
Print Assumptions c32_exact_size_refuted.
Print Assumptions c33_post_encoding_refuted.
Print Assumptions c47_decode_no_panic_refuted.
