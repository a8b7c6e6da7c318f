(** Properties C34, C49 and C50: note encryption. *)
From Coq Require Import List NArith Arith Bool Lia.
From Verif Require Import DxModel DxSpec DxLemmas.
From Verif Require DxInst.
Import ListNotations.

(** The field of two elements with a bijective permutation of width 4, for witnesses. *)
Definition bperm (st : list bool) : list bool :=
  match st with
  | [a; b; c; d] => [b; c; d; xorb a (b && negb c)]
  | _ => st
  end.
Definition binit : list bool := [true; false; false; false].

(** C34. Decrypting with the same key and header what was encrypted returns the plaintext and
    a verifying tag: for every permutation of the state, every width above 1, every key, every
    header and every number of plaintext blocks of the size of the rate. *)
Theorem c34_round_trip : forall F (fzero : F) fadd fsub feqb permute W init key header pt,
  (forall x y, feqb x y = true <-> x = y) ->
  (forall s m, fsub (fadd s m) s = m) ->
  (forall st, length (permute st) = length st) ->
  1 <= W -> length init = S W -> Forall (fun b => length b = W) pt ->
  exists c, encrypt F fzero fadd permute (S W) init key header pt = Ret c /\
    decrypt F fzero fadd fsub feqb permute (S W) init key header c = Ret (true, pt).
Proof.
  intros F fzero fadd fsub feqb permute W init key header pt Q A P H L B.
  destruct (dsetup_ok F fzero fadd permute W P init key header H L)
    as (bs & ins & st & _ & E & _ & L' & _ & _).
  destruct (plain_cipher F fadd fsub permute W A P pt st L' B) as (st' & ct & E1 & E2 & L2 & _ & _).
  destruct (read_tag_ok F W st' H L2) as (t & E3 & _).
  exists (Ciphertext t ct). unfold encrypt, duplex_encryption, decrypt, duplex_decryption. cbn [c_message c_tag].
  rewrite E. cbn [bind]. rewrite E1, E2. cbn [bind]. rewrite E3. cbn [bind].
  split; [reflexivity|]. do 2 f_equal. now apply Q.
Qed.

(** C34. A changed tag never verifies. *)
Theorem c34_tag_detected : forall F (fzero : F) fadd fsub feqb permute W init key header pt c t,
  (forall x y, feqb x y = true <-> x = y) ->
  (forall s m, fsub (fadd s m) s = m) ->
  (forall st, length (permute st) = length st) ->
  1 <= W -> length init = S W -> Forall (fun b => length b = W) pt ->
  encrypt F fzero fadd permute (S W) init key header pt = Ret c -> t <> c_tag c ->
  decrypt F fzero fadd fsub feqb permute (S W) init key header (Ciphertext t (c_message c)) = Ret (false, pt).
Proof.
  intros F fzero fadd fsub feqb permute W init key header pt c t Q A P H L B E T.
  destruct (c34_round_trip F fzero fadd fsub feqb permute W init key header pt Q A P H L B) as (c' & E1 & E2).
  assert (c' = c) by congruence. subst c'.
  unfold decrypt in *. cbn [c_message c_tag].
  destruct (duplex_decryption F fzero fadd fsub permute (S W) init key header (c_message c)) as [[t' p']|];
    [|discriminate].
  cbn [bind] in *. injection E2 as E2 ->. apply Q in E2. subst t'.
  do 2 f_equal. destruct (feqb t (c_tag c)) eqn:X; [|reflexivity]. apply Q in X. contradiction.
Qed.

(** C34 and C50. Two different triples of key, header and ciphertext blocks are accepted with
    one tag only if the permutation collides on two of the inputs it is given: in the capacity
    element, or at the last step in the tag element.  Keys, headers and ciphertexts are of
    fixed lengths, as the types of the configuration make them. *)
Theorem c34_change_detected : forall F (fzero : F) fadd fsub feqb permute W init tag key header msg p key' header' msg' p',
  (forall x y, feqb x y = true <-> x = y) ->
  (forall s m, fsub (fadd s m) s = m) ->
  (forall st, length (permute st) = length st) ->
  1 <= W -> length init = S W ->
  Forall (fun b => length b = W) msg -> Forall (fun b => length b = W) msg' ->
  length key = length key' -> length header = length header' -> length msg = length msg' ->
  decrypt F fzero fadd fsub feqb permute (S W) init key header (Ciphertext tag msg) = Ret (true, p) ->
  decrypt F fzero fadd fsub feqb permute (S W) init key' header' (Ciphertext tag msg') = Ret (true, p') ->
  (key, header, msg) <> (key', header', msg') ->
  exists kb hb ins st kb' hb' ins' st',
    cut_into fzero W key kb /\ cut_into fzero W header hb /\
    cut_into fzero W key' kb' /\ cut_into fzero W header' hb' /\
    feed F fadd permute init (map Add (kb ++ hb) ++ map Put msg) ins st /\
    feed F fadd permute init (map Add (kb' ++ hb') ++ map Put msg') ins' st' /\
    collide F permute ins ins'.
Proof.
  intros F fzero fadd fsub feqb permute W init tag key header msg p key' header' msg' p' Q A P H L B B' LK LH LM E E' D.
  destruct (decrypt_feed F fzero fadd fsub feqb permute W P init key header (Ciphertext tag msg) H L B)
    as (bs & ins & st & t & pt & S1 & Fd & T & N & Fb & E2).
  destruct (decrypt_feed F fzero fadd fsub feqb permute W P init key' header' (Ciphertext tag msg') H L B')
    as (bs' & ins' & st' & t' & pt' & S1' & Fd' & T' & N' & Fb' & E2').
  cbn [c_message c_tag] in *.
  destruct (setup_blocks_ok F fzero W key header H) as (kb & hb & S2 & C1 & C2 & K1 & K2).
  destruct (setup_blocks_ok F fzero W key' header' H) as (kb' & hb' & S2' & C1' & C2' & K1' & K2').
  assert (bs = kb ++ hb) by congruence. assert (bs' = kb' ++ hb') by congruence. subst bs bs'.
  exists kb, hb, ins, st, kb', hb', ins', st'.
  repeat (split; [assumption|]).
  assert (T1 : tag = t). { rewrite E2 in E. injection E as E _. now apply Q. }
  assert (T2 : tag = t'). { rewrite E2' in E'. injection E' as E' _. now apply Q. }
  assert (LL : length kb = length kb' /\ length hb = length hb') by (rewrite K1, K2, K1', K2', LK, LH; auto).
  destruct LL as [LL1 LL2].
  eapply feed_collide; eauto.
  - rewrite N, N', !app_length. lia.
  - congruence.
  - intros I. subst ins'. apply D.
    assert (X : map Add (kb ++ hb) ++ map Put msg = map Add (kb' ++ hb') ++ map Put msg').
    { eapply feed_inj with (W := W); eauto.
      - rewrite !map_app, !map_map. cbn [kind].
        f_equal; [f_equal|]; clear - LL1 LL2 LM.
        + revert kb' LL1. induction kb; intros [|]; cbn; intros; try discriminate; f_equal; auto.
        + revert hb' LL2. induction hb; intros [|]; cbn; intros; try discriminate; f_equal; auto.
        + revert msg' LM. induction msg; intros [|]; cbn; intros; try discriminate; f_equal; auto.
      - apply Forall_app. split; apply Forall_forall; intros i Hi; apply in_map_iff in Hi; destruct Hi as (b & <- & Hb); cbn.
        + exact (proj1 (Forall_forall _ _) Fb b Hb).
        + exact (proj1 (Forall_forall _ _) B b Hb).
      - apply Forall_app. split; apply Forall_forall; intros i Hi; apply in_map_iff in Hi; destruct Hi as (b & <- & Hb); cbn.
        + exact (proj1 (Forall_forall _ _) Fb' b Hb).
        + exact (proj1 (Forall_forall _ _) B' b Hb). }
    assert (Y : map body (map Add (kb ++ hb) ++ map Put msg) = map body (map Add (kb' ++ hb') ++ map Put msg')) by (now rewrite X).
    rewrite !map_app, !map_map, <- !app_assoc in Y. cbn [body] in Y. rewrite !map_id in Y.
    assert (Z : forall (a b c d : list (list F)), length a = length c -> a ++ b = c ++ d -> a = c /\ b = d).
    { clear. induction a as [|x a IH]; intros b [|y c] d L E; try discriminate; [auto|].
      injection L as L. injection E as -> E. destruct (IH b c d L E) as [-> ->]. auto. }
    apply Z in Y; [|exact LL1]. destruct Y as [Y1 Y].
    apply Z in Y; [|exact LL2]. destruct Y as [Y2 Y3]. subst kb' hb' msg'.
    destruct C1 as [_ (n & _ & C1)], C1' as [_ (n' & _ & C1')], C2 as [_ (m & _ & C2)], C2' as [_ (m' & _ & C2')].
    assert (Z2 : forall (a b c d : list F), length a = length c -> a ++ b = c ++ d -> a = c).
    { clear. induction a as [|x a IH]; intros b [|y c] d L E; try discriminate; [auto|].
      injection L as L. injection E as -> E. f_equal. eapply IH; eauto. }
    f_equal. f_equal.
    + apply (Z2 key (repeat fzero n) key' (repeat fzero n')); [exact LK|congruence].
    + apply (Z2 header (repeat fzero m) header' (repeat fzero m')); [exact LH|congruence].
Qed.

(** C34. The collision is real: with one ciphertext block, a changed block verifies exactly
    when the permutation gives the same tag element after it. *)
Theorem c34_single_block : forall F (fzero : F) fadd fsub feqb permute W init key header tag c,
  (forall x y, feqb x y = true <-> x = y) ->
  (forall st, length (permute st) = length st) ->
  1 <= W -> length init = S W -> length c = W ->
  exists kb hb ins k rate,
    cut_into fzero W key kb /\ cut_into fzero W header hb /\
    feed F fadd permute init (map Add (kb ++ hb)) ins (k :: rate) /\
    ((exists p, decrypt F fzero fadd fsub feqb permute (S W) init key header (Ciphertext tag [c]) = Ret (true, p))
     <-> nth_error (permute (k :: c)) 1 = Some tag).
Proof.
  intros F fzero fadd fsub feqb permute W init key header tag c Q P H L Lc.
  destruct (dsetup_ok F fzero fadd permute W P init key header H L)
    as (bs & ins & st & S1 & E & Fd & L' & _ & _).
  destruct (setup_blocks_ok F fzero W key header H) as (kb & hb & S2 & C1 & C2 & K1 & K2).
  assert (bs = kb ++ hb) by congruence. subst bs.
  destruct st as [|k rate]; [discriminate|]. injection L' as L'.
  exists kb, hb, ins, k, rate. split; [exact C1|]. split; [exact C2|]. split; [exact Fd|].
  unfold decrypt, duplex_decryption. cbn [c_message c_tag]. rewrite E. cbn [bind absorb_all]. unfold absorb. cbn [write_cipher].
  rewrite take_block_spec by congruence. cbn [bind]. unfold read_tag.
  destruct (nth_error (permute (k :: c)) 1) as [t|] eqn:T; cbn [bind].
  - split.
    + intros (p & X). injection X as X _. apply Q in X. congruence.
    + intros X. injection X as ->. eexists. do 2 f_equal. now apply Q.
  - split; [intros (p & X)|]; discriminate.
Qed.

(** C34, refuted for blocks whose length is not that of the rate: the block type is an
    unsized slice; elements after the rate are dropped without notice, both from a plaintext
    (which is not returned) and from a ciphertext (which verifies in two forms, with the same
    inputs to the permutation). *)
Theorem c34_long_block_refuted : exists (key : list bool) pt c p c',
  encrypt bool false xorb bperm 4 binit key [] pt = Ret c /\
  decrypt bool false xorb xorb eqb bperm 4 binit key [] c = Ret (true, p) /\ p <> pt /\
  decrypt bool false xorb xorb eqb bperm 4 binit key [] c' = Ret (true, p) /\ c' <> c.
Proof.
  exists [true; false], [[true; true; false; true]],
    (Ciphertext true [[true; true; true]]), [[true; true; false]], (Ciphertext true [[true; true; true; false]]).
  split; [vm_compute; reflexivity|]. split; [vm_compute; reflexivity|]. split; [discriminate|].
  split; [vm_compute; reflexivity|discriminate].
Qed.

(** C34, a block shorter than the rate stops the program. *)
Theorem c34_short_block_panics : forall F (fzero : F) fadd fsub feqb permute W init key header tag c cs,
  (forall st, length (permute st) = length st) ->
  1 <= W -> length init = S W -> length c < W ->
  decrypt F fzero fadd fsub feqb permute (S W) init key header (Ciphertext tag (c :: cs)) = Panic.
Proof.
  intros F fzero fadd fsub feqb permute W init key header tag c cs P H L Lc.
  destruct (dsetup_ok F fzero fadd permute W P init key header H L)
    as (bs & ins & st & S1 & E & Fd & L' & _ & _).
  destruct st as [|k rate]; [discriminate|]. injection L' as L'.
  unfold decrypt, duplex_decryption. cbn [c_message c_tag]. rewrite E. cbn. unfold absorb. cbn.
  assert (X : take_block F fsub rate c = Panic).
  { clear - Lc L'. rewrite <- L' in Lc. clear L'. revert c Lc. induction rate as [|s rate IH]; intros [|x c] Lc; cbn in *; try lia; auto.
    rewrite IH by lia. reflexivity. }
  rewrite X. reflexivity.
Qed.

(** C50. With keys of one length and headers of one length, the blocks absorbed determine the
    key and the header. *)
Theorem c50_setup_binding_partial : forall F (fzero : F) W key header key' header' bs,
  1 <= W -> length key = length key' -> length header = length header' ->
  setup_blocks F fzero (S W) key header = Ret bs ->
  setup_blocks F fzero (S W) key' header' = Ret bs ->
  key = key' /\ header = header'.
Proof.
  intros F fzero W key header key' header' bs H LK LH E E'.
  destruct (setup_blocks_ok F fzero W key header H) as (kb & hb & S2 & C1 & C2 & K1 & K2).
  destruct (setup_blocks_ok F fzero W key' header' H) as (kb' & hb' & S2' & C1' & C2' & K1' & K2').
  assert (X : kb ++ hb = kb' ++ hb') by congruence.
  assert (Z : forall A (a b c d : list A), length a = length c -> a ++ b = c ++ d -> a = c /\ b = d).
  { clear. induction a as [|x a IH]; intros b [|y c] d L E; try discriminate; [auto|].
    injection L as L. injection E as -> E. destruct (IH b c d L E) as [-> ->]. auto. }
  apply Z in X; [|rewrite K1, K1', LK; reflexivity]. destruct X as [-> ->].
  destruct C1 as [_ (n & _ & C1)], C1' as [_ (n' & _ & C1')], C2 as [_ (m & _ & C2)], C2' as [_ (m' & _ & C2')].
  split.
  - apply (Z F key (repeat fzero n) key' (repeat fzero n')); [exact LK|congruence].
  - apply (Z F header (repeat fzero m) header' (repeat fzero m')); [exact LH|congruence].
Qed.

(** C50, refuted in general: the padding is not injective, and nothing separates the key from
    the header: with the code's rate of 3, different keys of different lengths, and different
    splits between key and header, are encrypted alike; one decrypts the other's messages. *)
Theorem c50_padding_refuted : exists (key key' header header' : list bool) pt c,
  key <> key' /\ header <> header' /\
  encrypt bool false xorb bperm 4 binit key header [pt] = Ret c /\
  encrypt bool false xorb bperm 4 binit key' header' [pt] = Ret c /\
  decrypt bool false xorb xorb eqb bperm 4 binit key' header' c = Ret (true, [pt]).
Proof.
  exists [true; false; true], [true; false; true; false; false; false], [false; false; false], [], [true; true; false],
    (Ciphertext false [[false; false; true]]).
  split; [discriminate|]. split; [discriminate|].
  split; [vm_compute; reflexivity|]. split; vm_compute; reflexivity.
Qed.

Lemma slice_ok : forall l a b, b <= length l -> slice l a b = Ret (firstn (b - a) (skipn a l)).
Proof. intros l a b H. unfold slice. apply Nat.leb_le in H. now rewrite H. Qed.

Lemma cut3 : forall (a b c : list N), length a = 32 -> length b = 32 -> length c = 16 ->
  slice (a ++ b ++ c) 0 32 = Ret a /\ slice (a ++ b ++ c) 32 64 = Ret b /\ slice (a ++ b ++ c) 64 80 = Ret c.
Proof.
  intros a b c A B C.
  assert (L : length (a ++ b ++ c) = 80) by (rewrite !app_length; lia).
  rewrite !slice_ok by lia. cbn [Nat.sub].
  split; [|split].
  - rewrite skipn_O, firstn_app, A, firstn_all2 by lia. change (32 - 32) with 0. now rewrite firstn_O, app_nil_r.
  - rewrite skipn_app, A, skipn_all2 by lia. change (32 - 32) with 0. rewrite skipn_O. cbn [app].
    rewrite firstn_app, B, firstn_all2 by lia. change (32 - 32) with 0. now rewrite firstn_O, app_nil_r.
  - rewrite skipn_app, A, skipn_all2 by lia. change (64 - 32) with 32. cbn [app].
    rewrite skipn_app, B, skipn_all2 by lia. change (32 - 32) with 0. rewrite skipn_O. cbn [app].
    rewrite firstn_all2 by lia. reflexivity.
Qed.

(** C34. The note in the form which the circuit checks: a receiver opens the incoming note
    made for their key and finds the randomness and the asset. *)
Theorem c34_incoming_note : forall F (fzero : F) fadd fsub feqb of_u128 fval G Sc (smul : G -> Sc -> G) gen gx gy
    permute init dk esk p,
  (forall x y, feqb x y = true <-> x = y) ->
  (forall s m, fsub (fadd s m) s = m) ->
  (forall st, length (permute st) = length st) ->
  (forall v, (v < 2 ^ 128)%N -> fval (of_u128 v) = v) ->
  (forall a b, smul (smul gen a) b = smul (smul gen b) a) ->
  length init = 4 -> (a_value F (i_asset F p) < 2 ^ 128)%N ->
  exists c,
    hybrid_encrypt G Sc smul gen (incoming_base_encrypt F fzero fadd of_u128 G gx gy permute init) (smul gen dk) esk p = Ret c /\
    hybrid_decrypt G Sc smul (incoming_base_decrypt F fzero fadd fsub feqb fval G gx gy permute init) dk c = Ret (Some p).
Proof.
  intros F fzero fadd fsub feqb of_u128 fval G Sc smul gen gx gy permute init dk esk [r [i v]] Q A P U D L V.
  cbn [i_asset a_value] in V.
  destruct (c34_round_trip F fzero fadd fsub feqb permute 3 init
    (poseidon_key F G gx gy (smul (smul gen dk) esk)) [] (incoming_as_target F of_u128 (Incoming F r (Asset F i v)))
    Q A P) as (c & E1 & E2); [repeat constructor|exact L|repeat constructor|].
  exists (smul gen esk, c). unfold hybrid_encrypt, hybrid_decrypt, generate_secret, reconstruct_secret, derive_ephemeral.
  unfold incoming_base_encrypt, incoming_base_decrypt. rewrite E1. cbn [bind fst snd].
  split; [reflexivity|]. rewrite D, E2. cbn [bind].
  cbn [incoming_as_target i_rand i_asset a_id a_value incoming_into_source fst snd].
  unfold try_into_u128. rewrite U by exact V. apply N.ltb_lt in V. rewrite V. reflexivity.
Qed.

(** C34. Opening the light note made for one's key returns the randomness and the asset, for
    every cipher which decrypts its own encryptions. *)
Theorem c34_light_note : forall F (fenc : F -> list N) fdec G Sc (smul : G -> Sc -> G) gen Key aes_enc aes_dec (khash : G -> Key)
    partition dk esk transparent p,
  (forall x, fdec (fenc x) = Some x) -> (forall x, length (fenc x) = 32) ->
  (forall k m, aes_dec k (aes_enc k m) = Some m) -> (forall k m, length (aes_enc k m) = length m + 16) ->
  (forall a b, smul (smul gen a) b = smul (smul gen b) a) ->
  (a_value F (i_asset F p) < 2 ^ 128)%N ->
  exists c, light_note F fenc G Sc smul gen Key aes_enc khash (smul gen dk) esk p = Ret c /\
    note_open F fdec G Sc smul gen Key aes_dec khash partition dk transparent (Note G (partition (smul gen dk)) c)
    = Ret (Some ((transparent, i_rand F p), i_asset F p)).
Proof.
  intros F fenc fdec G Sc smul gen Key aes_enc aes_dec khash partition dk esk transparent [r [i v]] E EL A AL D V.
  cbn [i_asset a_value] in V.
  set (t := fenc r ++ fenc i ++ le_bytes 16 v).
  assert (LT : length t = 80). { unfold t. rewrite !app_length, !EL, DxInst.le_len. reflexivity. }
  exists (smul gen esk, aes_enc (khash (smul (smul gen dk) esk)) t). split.
  - unfold light_note, hybrid_encrypt, light_base_encrypt, light_as_target, aes_encrypt, generate_secret, derive_ephemeral.
    cbn [i_rand i_asset a_id a_value]. fold t. rewrite LT. cbn [Nat.eqb bind]. rewrite AL, LT. reflexivity.
  - unfold note_open. cbn [n_partition n_light]. rewrite N.eqb_refl.
    unfold hybrid_decrypt, reconstruct_secret, light_base_decrypt, aes_decrypt. cbn [fst snd]. rewrite D, A, LT. cbn [Nat.eqb bind].
    unfold light_into_source.
    destruct (cut3 (fenc r) (fenc i) (le_bytes 16 v) (EL r) (EL i) (DxInst.le_len 16 v)) as (C1 & C2 & C3).
    fold t in C1, C2, C3. rewrite C1, C2, C3. cbn [bind]. unfold from_vec_expect. rewrite !E. cbn [bind i_rand i_asset].
    rewrite DxInst.of_le_le by exact V. reflexivity.
Qed.

(** C34. The outgoing note of a spend is recognised by the spender's key. *)
Theorem c34_outgoing_note : forall F (fenc : F -> list N) fdec G Sc (smul : G -> Sc -> G) gen Key aes_enc aes_dec (khash : G -> Key)
    dk esk a,
  (forall x, fdec (fenc x) = Some x) -> (forall x, length (fenc x) = 32) ->
  (forall k m, aes_dec k (aes_enc k m) = Some m) -> (forall k m, length (aes_enc k m) = length m + 16) ->
  (forall a b, smul (smul gen a) b = smul (smul gen b) a) ->
  (a_value F a < 2 ^ 128)%N ->
  exists c, outgoing_note F fenc G Sc smul gen Key aes_enc khash (smul gen dk) esk a = Ret c /\
    nullifier_open F fdec G Sc smul Key aes_dec khash dk c = Ret (Some a) /\
    can_be_opened F fdec G Sc smul Key aes_dec khash dk c = Ret true.
Proof.
  intros F fenc fdec G Sc smul gen Key aes_enc aes_dec khash dk esk [i v] E EL A AL D V.
  cbn [a_value] in V.
  set (t := fenc i ++ le_bytes 16 v).
  assert (LT : length t = 48). { unfold t. rewrite !app_length, !EL, DxInst.le_len. reflexivity. }
  exists (smul gen esk, aes_enc (khash (smul (smul gen dk) esk)) t).
  assert (O : nullifier_open F fdec G Sc smul Key aes_dec khash dk
     (smul gen esk, aes_enc (khash (smul (smul gen dk) esk)) t) = Ret (Some (Asset F i v))).
  { unfold nullifier_open, hybrid_decrypt, reconstruct_secret, outgoing_base_decrypt, aes_decrypt. cbn [fst snd].
    rewrite D, A, LT. cbn [Nat.eqb bind]. unfold outgoing_into_source.
    rewrite !slice_ok by lia. cbn [Nat.sub bind]. unfold t. rewrite skipn_O, firstn_app, EL, firstn_all2 by (rewrite EL; lia).
    change (32 - 32) with 0. rewrite firstn_O, app_nil_r. unfold from_vec_expect. rewrite E. cbn [bind].
    rewrite skipn_app, EL, skipn_all2 by (rewrite EL; lia). change (32 - 32) with 0. rewrite skipn_O. cbn [app].
    rewrite firstn_all2 by (rewrite DxInst.le_len; lia). rewrite DxInst.of_le_le by exact V. reflexivity. }
  split; [|split; [exact O|]].
  - unfold outgoing_note, hybrid_encrypt, outgoing_base_encrypt, outgoing_as_target, aes_encrypt, generate_secret, derive_ephemeral.
    cbn [a_id a_value]. fold t. rewrite LT. cbn [Nat.eqb bind]. rewrite AL, LT. reflexivity.
  - unfold can_be_opened. rewrite O. reflexivity.
Qed.

(** C49, refuted for every address: whoever knows a receiving key [smul gen dk] makes, without
    knowing [dk], a note which stops the wallet that opens it; all data in which the ledger
    hands this note to the wallet stop it, whatever comes before and after.  [bad] is any
    32-byte string which is not the encoding of a field element. *)
Theorem c49_sync_stopped : forall F fdec G Sc (smul : G -> Sc -> G) gen Key aes_enc aes_dec (khash : G -> Key) partition
    check bad (esk : Sc),
  (forall k m, aes_dec k (aes_enc k m) = Some m) ->
  (forall a b, smul (smul gen a) b = smul (smul gen b) a) ->
  length bad = 32 -> fdec bad = None ->
  exists (attack : G -> note G), forall dk nulls pre post t,
    sync_open F fdec G Sc smul gen Key aes_dec khash partition check dk nulls (pre ++ (t, attack (smul gen dk)) :: post) = Panic.
Proof.
  intros F fdec G Sc smul gen Key aes_enc aes_dec khash partition check bad esk A D LB FB.
  exists (fun pk => Note G (partition pk) (smul gen esk, aes_enc (khash (smul pk esk)) (bad ++ bad ++ repeat 0%N 16))).
  intros dk nulls pre post t. unfold sync_open.
  destruct (open_nullifiers F fdec G Sc smul Key aes_dec khash dk nulls); [cbn [bind]|reflexivity].
  assert (X : open_notes F fdec G Sc smul gen Key aes_dec khash partition check dk
    (pre ++ (t, Note G (partition (smul gen dk)) (smul gen esk, aes_enc (khash (smul (smul gen dk) esk)) (bad ++ bad ++ repeat 0%N 16))) :: post) = Panic).
  { induction pre as [|[t' n] pre IH]; cbn [app open_notes].
    - unfold open_with_check, note_open. cbn [n_partition n_light]. rewrite N.eqb_refl.
      unfold hybrid_decrypt, reconstruct_secret, light_base_decrypt, aes_decrypt. cbn [fst snd]. rewrite D, A.
      replace (length (bad ++ bad ++ repeat 0%N 16)) with 80 by (rewrite !app_length, LB; reflexivity).
      cbn [Nat.eqb bind]. unfold light_into_source.
      destruct (cut3 bad bad (repeat 0%N 16) LB LB eq_refl) as (C1 & C2 & C3). rewrite C1, C2, C3. cbn [bind].
      unfold from_vec_expect. rewrite FB. reflexivity.
    - destruct (open_with_check F fdec G Sc smul gen Key aes_dec khash partition check dk t' n); [|reflexivity].
      cbn [bind]. rewrite IH. reflexivity. }
  rewrite X. reflexivity.
Qed.

(** The same through an outgoing note: also a nullifier made for somebody else's key stops
    their wallet. *)
Theorem c49_nullifier_stopped : forall F fdec G Sc (smul : G -> Sc -> G) gen Key aes_enc aes_dec (khash : G -> Key)
    bad (esk : Sc),
  (forall k m, aes_dec k (aes_enc k m) = Some m) ->
  (forall a b, smul (smul gen a) b = smul (smul gen b) a) ->
  length bad = 32 -> fdec bad = None ->
  exists (attack : G -> G * list N), forall dk pre post,
    open_nullifiers F fdec G Sc smul Key aes_dec khash dk (pre ++ attack (smul gen dk) :: post) = Panic.
Proof.
  intros F fdec G Sc smul gen Key aes_enc aes_dec khash bad esk A D LB FB.
  exists (fun pk => (smul gen esk, aes_enc (khash (smul pk esk)) (bad ++ repeat 0%N 16))).
  intros dk pre post. induction pre as [|n pre IH]; cbn [app open_nullifiers].
  - unfold can_be_opened, nullifier_open, hybrid_decrypt, reconstruct_secret, outgoing_base_decrypt, aes_decrypt.
    cbn [fst snd]. rewrite D, A.
    replace (length (bad ++ repeat 0%N 16)) with 48 by (rewrite !app_length, LB; reflexivity).
    cbn [Nat.eqb bind]. unfold outgoing_into_source.
    rewrite !slice_ok by (rewrite app_length, LB; cbn; lia). cbn [bind Nat.sub].
    rewrite skipn_O, firstn_app, LB, firstn_all2 by lia. change (32 - 32) with 0. rewrite firstn_O, app_nil_r.
    unfold from_vec_expect. rewrite FB. reflexivity.
  - destruct (can_be_opened F fdec G Sc smul Key aes_dec khash dk n); [|reflexivity].
    cbn [bind]. rewrite IH. reflexivity.
Qed.

Lemma of_le_fold : forall bs, of_le_bytes bs = fold_right (fun b acc => b + 256 * acc)%N 0%N bs.
Proof. induction bs as [|b bs IH]; cbn [of_le_bytes fold_right]; congruence. Qed.

Lemma split80 : forall (m : list N), length m = 80 ->
  m = firstn 32 m ++ firstn 32 (skipn 32 m) ++ firstn 16 (skipn 64 m) /\
  length (firstn 32 m) = 32 /\ length (firstn 32 (skipn 32 m)) = 32 /\ length (firstn 16 (skipn 64 m)) = 16.
Proof.
  intros m L.
  assert (A : length (firstn 32 m) = 32) by (rewrite firstn_length; lia).
  assert (B : length (firstn 32 (skipn 32 m)) = 32) by (rewrite firstn_length, skipn_length; lia).
  assert (C : length (firstn 16 (skipn 64 m)) = 16) by (rewrite firstn_length, skipn_length; lia).
  split; [|auto].
  rewrite (firstn_all2 (skipn 64 m)) by (rewrite skipn_length; lia).
  rewrite <- (firstn_skipn 32 m) at 1. f_equal.
  rewrite <- (firstn_skipn 32 (skipn 32 m)) at 1. f_equal.
  rewrite <- (firstn_skipn 64 m) at 1. rewrite skipn_app, skipn_app.
  rewrite (skipn_all2 (skipn 32 (firstn 64 m))) by (rewrite skipn_length, firstn_length; lia).
  rewrite skipn_length, firstn_length. replace (32 - (Nat.min 64 (length m) - 32)) with 0 by lia.
  replace (32 - Nat.min 64 (length m)) with 0 by lia. reflexivity.
Qed.

Section Sync.
Variables (F G Sc Key : Type).
Variable fdec : list N -> option F.
Variable smul : G -> Sc -> G.
Variable gen : G.
Variable aes_dec : Key -> list N -> option (list N).
Variable khash : G -> Key.
Variable partition : G -> N.
Variable check : bool * F -> asset F -> bool.
Variable dk : Sc.

(** The plaintext a wallet sees in a note and in the outgoing note of a nullifier. *)
Definition sees (n : note G) : option (list N) :=
  if (partition (smul gen dk) =? n_partition G n)%N
  then aes_dec (khash (smul (fst (n_light G n)) dk)) (snd (n_light G n)) else None.
Definition sees_null (n : G * list N) : option (list N) :=
  aes_dec (khash (smul (fst n) dk)) (snd n).

Hypothesis aes_len : forall k c m, aes_dec k c = Some m -> length m + 16 = length c.

Lemma open_sees : forall t n, length (snd (n_light G n)) = 96 ->
  (readable fdec 2 (sees n) ->
   exists o, open_with_check F fdec G Sc smul gen Key aes_dec khash partition check dk t n = Ret o /\
     (forall i a, o = Some (i, a) <->
        fst i = t /\ holds fdec (sees n) (snd i) (a_id F a) (a_value F a) /\ check i a = true)) /\
  (~ readable fdec 2 (sees n) ->
   open_with_check F fdec G Sc smul gen Key aes_dec khash partition check dk t n = Panic).
Proof.
  intros t [pn [epk c]] L. cbn [n_light snd] in L.
  unfold sees, open_with_check, note_open. cbn [n_light n_partition fst snd].
  destruct (N.eqb_spec (partition (smul gen dk)) pn) as [E|E].
  2: { cbn [bind]. split.
    - intros _. exists None. split; [reflexivity|]. intros i a. split; [discriminate|].
      intros (_ & (rb & ib & vb & X & _) & _). discriminate.
    - intros X. exfalso. apply X. intros bs Y. discriminate. }
  unfold hybrid_decrypt, reconstruct_secret, light_base_decrypt, aes_decrypt. cbn [fst snd].
  destruct (aes_dec (khash (smul epk dk)) c) as [m|] eqn:A.
  2: { cbn [bind light_into_source]. split.
    - intros _. exists None. split; [reflexivity|]. intros i a. split; [discriminate|].
      intros (_ & (rb & ib & vb & X & _) & _). discriminate.
    - intros X. exfalso. apply X. intros bs Y. discriminate. }
  assert (LM : length m = 80) by (apply aes_len in A; lia).
  rewrite LM. cbn [Nat.eqb bind]. unfold light_into_source.
  rewrite !slice_ok by lia. cbn [bind Nat.sub]. rewrite skipn_O. unfold from_vec_expect.
  destruct (split80 m LM) as (SP & L1 & L2 & L3).
  assert (R0 : fdec (firstn 32 m) <> None -> fdec (firstn 32 (skipn 32 m)) <> None -> readable fdec 2 (Some m)).
  { intros X Y bs Z i I. injection Z as <-. destruct i as [|[|i]]; [rewrite Nat.mul_0_r, skipn_O; exact X| |lia].
    rewrite Nat.mul_1_r. exact Y. }
  destruct (fdec (firstn 32 m)) as [r|] eqn:R; cbn [bind].
  2: { split; [|reflexivity]. intros X. exfalso. apply (X m eq_refl 0); [lia|]. rewrite Nat.mul_0_r, skipn_O. exact R. }
  destruct (fdec (firstn 32 (skipn 32 m))) as [id|] eqn:I; cbn [bind].
  2: { split; [|reflexivity]. intros X. exfalso. apply (X m eq_refl 1); [lia|]. rewrite Nat.mul_1_r. exact I. }
  split.
  2: { intros X. exfalso. apply X, R0; discriminate. }
  intros _. cbn [i_rand i_asset]. eexists. split; [reflexivity|].
  set (v := of_le_bytes (firstn 16 (skipn 64 m))).
  assert (H : forall r' id' v', holds fdec (Some m) r' id' v' <-> r' = r /\ id' = id /\ v' = v).
  { intros r' id' v'. split.
    - intros (rb & ib & vb & X & X1 & X2 & X3 & X4 & X5 & X6). injection X as X.
      rewrite X in R, I. unfold v. rewrite X.
      rewrite (firstn_app 32 rb), X1, firstn_all2, Nat.sub_diag, firstn_O, app_nil_r in R by lia.
      assert (SK : skipn 32 (rb ++ ib ++ vb) = ib ++ vb).
      { rewrite skipn_app, X1, skipn_all2, Nat.sub_diag by lia. reflexivity. }
      assert (SK2 : skipn 64 (rb ++ ib ++ vb) = vb).
      { rewrite skipn_app, X1, skipn_all2 by lia. change (64 - 32) with 32. cbn [app].
        rewrite skipn_app, X2, skipn_all2, Nat.sub_diag by lia. reflexivity. }
      rewrite SK in I. rewrite SK2.
      rewrite firstn_app, X2, firstn_all2, Nat.sub_diag, firstn_O, app_nil_r in I by lia.
      rewrite firstn_all2 by lia. rewrite of_le_fold.
      split; [congruence|]. split; [congruence|exact X6].
    - intros (-> & -> & ->). exists (firstn 32 m), (firstn 32 (skipn 32 m)), (firstn 16 (skipn 64 m)).
      split; [congruence|]. split; [exact L1|]. split; [exact L2|]. split; [exact L3|].
      split; [exact R|]. split; [exact I|]. apply of_le_fold. }
  intros [t' r'] [id' v']. cbn [fst snd a_id a_value].
  destruct (check (t, r) (Asset F id v)) eqn:CK.
  - split.
    + intros X. injection X as <- <- <- <-. split; [reflexivity|]. split; [|exact CK]. apply H. auto.
    + intros (-> & X & _). apply H in X. destruct X as (-> & -> & ->). reflexivity.
  - split; [discriminate|]. intros (-> & X & CK'). apply H in X. destruct X as (-> & -> & ->). congruence.
Qed.

Lemma null_sees : forall n, length (snd n) = 64 ->
  (readable fdec 1 (sees_null n) ->
   exists b, can_be_opened F fdec G Sc smul Key aes_dec khash dk n = Ret b /\ (b = true <-> sees_null n <> None)) /\
  (~ readable fdec 1 (sees_null n) ->
   can_be_opened F fdec G Sc smul Key aes_dec khash dk n = Panic).
Proof.
  intros [epk c] L. cbn [snd] in L. unfold sees_null. cbn [fst snd].
  unfold can_be_opened, nullifier_open, hybrid_decrypt, reconstruct_secret, outgoing_base_decrypt, aes_decrypt. cbn [fst snd].
  destruct (aes_dec (khash (smul epk dk)) c) as [m|] eqn:A.
  2: { cbn [bind outgoing_into_source]. split.
    - intros _. exists false. split; [reflexivity|]. split; [discriminate|congruence].
    - intros X. exfalso. apply X. intros bs Y. discriminate. }
  assert (LM : length m = 48) by (apply aes_len in A; lia).
  rewrite LM. cbn [Nat.eqb bind]. unfold outgoing_into_source.
  rewrite !slice_ok by lia. cbn [bind Nat.sub]. rewrite skipn_O. unfold from_vec_expect.
  destruct (fdec (firstn 32 m)) as [r|] eqn:R; cbn [bind].
  - split.
    + intros _. exists true. split; [reflexivity|]. split; [discriminate|reflexivity].
    + intros X. exfalso. apply X. intros bs Y i I. injection Y as <-. replace i with 0 by lia.
      rewrite Nat.mul_0_r, skipn_O, R. discriminate.
  - split; [|reflexivity]. intros X. exfalso. apply (X m eq_refl 0); [lia|]. rewrite Nat.mul_0_r, skipn_O. exact R.
Qed.

(** C49. The data of a reply is read without a panic exactly when everything in it which
    decrypts under the wallet's key is encoded well; and then the wallet finds exactly the
    notes which hold its randomness, asset id and value and pass the check against the utxo,
    and exactly the nullifiers which decrypt. *)
Theorem c49_sync_total_partial : forall nulls notes,
  Forall (fun n => length (snd n) = 64) nulls ->
  Forall (fun tn => length (snd (n_light G (snd tn))) = 96) notes ->
  (Forall (fun n => readable fdec 1 (sees_null n)) nulls /\
   Forall (fun tn => readable fdec 2 (sees (snd tn))) notes ->
   exists bs os, sync_open F fdec G Sc smul gen Key aes_dec khash partition check dk nulls notes = Ret (bs, os) /\
     Forall2 (fun n b => b = true <-> sees_null n <> None) nulls bs /\
     Forall2 (fun tn o => forall i a, o = Some (i, a) <->
        fst i = fst tn /\ holds fdec (sees (snd tn)) (snd i) (a_id F a) (a_value F a) /\ check i a = true) notes os) /\
  (Exists (fun n => ~ readable fdec 1 (sees_null n)) nulls \/
   Exists (fun tn => ~ readable fdec 2 (sees (snd tn))) notes ->
   sync_open F fdec G Sc smul gen Key aes_dec khash partition check dk nulls notes = Panic).
Proof.
  intros nulls notes LN LT. split.
  - intros [RN RT].
    assert (X : exists bs, open_nullifiers F fdec G Sc smul Key aes_dec khash dk nulls = Ret bs /\
      Forall2 (fun n b => b = true <-> sees_null n <> None) nulls bs).
    { clear LT RT notes. induction nulls as [|n nulls IH]; [exists []; split; [reflexivity|constructor]|].
      inversion LN as [|? ? L1 L2]; inversion RN as [|? ? R1 R2]; subst.
      destruct (IH L2 R2) as (bs & E & Q). destruct (proj1 (null_sees n L1) R1) as (b & E1 & Q1).
      exists (b :: bs). cbn [open_nullifiers]. rewrite E1. cbn [bind]. rewrite E. split; [reflexivity|].
      constructor; auto. }
    assert (Y : exists os, open_notes F fdec G Sc smul gen Key aes_dec khash partition check dk notes = Ret os /\
      Forall2 (fun tn o => forall i a, o = Some (i, a) <->
        fst i = fst tn /\ holds fdec (sees (snd tn)) (snd i) (a_id F a) (a_value F a) /\ check i a = true) notes os).
    { clear LN RN nulls X. induction notes as [|[t n] notes IH]; [exists []; split; [reflexivity|constructor]|].
      inversion LT as [|? ? L1 L2]; inversion RT as [|? ? R1 R2]; subst. cbn [snd] in L1, R1.
      destruct (IH L2 R2) as (os & E & Q). destruct (proj1 (open_sees t n L1) R1) as (o & E1 & Q1).
      exists (o :: os). cbn [open_notes]. rewrite E1. cbn [bind]. rewrite E. split; [reflexivity|].
      constructor; auto. }
    destruct X as (bs & E & Q), Y as (os & E' & Q').
    exists bs, os. unfold sync_open. rewrite E. cbn [bind]. rewrite E'. auto.
  - intros [X|X]; unfold sync_open.
    + assert (Y : open_nullifiers F fdec G Sc smul Key aes_dec khash dk nulls = Panic).
      { clear LT notes. induction X as [n nulls X|n nulls X IH]; inversion LN as [|? ? L1 L2]; subst; cbn [open_nullifiers].
        - rewrite (proj2 (null_sees n L1) X). reflexivity.
        - destruct (can_be_opened F fdec G Sc smul Key aes_dec khash dk n); [|reflexivity]. cbn [bind].
          rewrite IH by exact L2. reflexivity. }
      rewrite Y. reflexivity.
    + destruct (open_nullifiers F fdec G Sc smul Key aes_dec khash dk nulls); [cbn [bind]|reflexivity].
      assert (Y : open_notes F fdec G Sc smul gen Key aes_dec khash partition check dk notes = Panic).
      { clear LN nulls. induction X as [[t n] notes X|[t n] notes X IH]; inversion LT as [|? ? L1 L2]; subst; cbn [open_notes].
        - rewrite (proj2 (open_sees t n L1) X). reflexivity.
        - destruct (open_with_check F fdec G Sc smul gen Key aes_dec khash partition check dk t n); [|reflexivity].
          cbn [bind]. rewrite IH by exact L2. reflexivity. }
      rewrite Y. reflexivity.
Qed.
End Sync.

Definition is_panic {A} (x : res A) : bool := match x with Panic => true | Ret _ => false end.
Lemma is_panic_true : forall A (x : res A), is_panic x = true -> x = Panic.
Proof. intros A [a|] H; [discriminate|reflexivity]. Qed.

(** C49, a concrete case: the wallet with key 3, and 32 bytes 255. *)
Theorem c49_refuted : exists n t,
  note_open DxInst.Fq DxInst.fdec DxInst.Fq DxInst.Fq DxInst.smul DxInst.gen DxInst.Key DxInst.aes_dec
    DxInst.khash DxInst.partition (DxInst.mk 3) t n = Panic.
Proof.
  exists (Note DxInst.Fq 15 (DxInst.mk 35,
     DxInst.aes_enc (DxInst.khash (DxInst.mk 105)) (repeat 255%N 64 ++ repeat 0%N 16))), false.
  apply is_panic_true. vm_compute. reflexivity.
Qed.

(** The instance meets the hypotheses of the theorems above. *)
Example dx_instance :
  (forall x y, DxInst.feqb x y = true <-> x = y) /\
  (forall s m, DxInst.fsub (DxInst.fadd s m) s = m) /\
  (forall st, length (DxInst.permute st) = length st) /\
  (forall v, (v < 2 ^ 128)%N -> DxInst.val (DxInst.mk v) = v) /\
  (forall a b, DxInst.smul (DxInst.smul DxInst.gen a) b = DxInst.smul (DxInst.smul DxInst.gen b) a) /\
  (forall x, DxInst.fdec (DxInst.fenc x) = Some x) /\ (forall x, length (DxInst.fenc x) = 32) /\
  (forall k m, DxInst.aes_dec k (DxInst.aes_enc k m) = Some m) /\
  (forall k m, length (DxInst.aes_enc k m) = length m + 16) /\
  (forall k c m, DxInst.aes_dec k c = Some m -> length m + 16 = length c) /\
  length DxInst.init = 4 /\
  length (repeat 255%N 32) = 32 /\ DxInst.fdec (repeat 255%N 32) = None.
Proof.
  split; [exact DxInst.feqb_spec|]. split; [exact DxInst.sub_add|]. split; [exact DxInst.permute_len|].
  split; [exact DxInst.val_of_u128|]. split; [exact DxInst.dh|]. split; [exact DxInst.fdec_fenc|].
  split; [exact DxInst.fenc_len|]. split; [exact DxInst.aes_ok|]. split; [exact DxInst.aes_len|].
  split; [exact DxInst.aes_dec_len|].
  split; [reflexivity|]. split; [reflexivity|].
  enough (X : match DxInst.fdec (repeat 255%N 32) with None => true | Some _ => false end = true)
    by (destruct (DxInst.fdec (repeat 255%N 32)); [discriminate|reflexivity]).
  vm_compute. reflexivity.
Qed.

(** A reply with a note for the wallet with key 3, one for the wallet with key 4, and a
    nullifier of each: only the first of each pair is opened. *)
Definition ex_note (dk : N) (p : incoming DxInst.Fq) : res (note DxInst.Fq) :=
  let pk := DxInst.smul DxInst.gen (DxInst.mk dk) in
  let* c := light_note DxInst.Fq DxInst.fenc DxInst.Fq DxInst.Fq DxInst.smul DxInst.gen DxInst.Key DxInst.aes_enc DxInst.khash
    pk (DxInst.mk 77) p in
  Ret (Note DxInst.Fq (DxInst.partition pk) c).
Definition ex_null (dk : N) (a : asset DxInst.Fq) : res (DxInst.Fq * list N) :=
  outgoing_note DxInst.Fq DxInst.fenc DxInst.Fq DxInst.Fq DxInst.smul DxInst.gen DxInst.Key DxInst.aes_enc DxInst.khash
    (DxInst.smul DxInst.gen (DxInst.mk dk)) (DxInst.mk 78) a.
Definition ex_incoming := Incoming DxInst.Fq (DxInst.mk 1234) (Asset DxInst.Fq (DxInst.mk 9) 1000000).
Definition ex_sync :=
  let* n3 := ex_note 3 ex_incoming in
  let* n4 := ex_note 4 ex_incoming in
  let* u3 := ex_null 3 (i_asset _ ex_incoming) in
  let* u4 := ex_null 4 (i_asset _ ex_incoming) in
  sync_open DxInst.Fq DxInst.fdec DxInst.Fq DxInst.Fq DxInst.smul DxInst.gen DxInst.Key DxInst.aes_dec DxInst.khash
    DxInst.partition (fun _ _ => true) (DxInst.mk 3) [u3; u4] [(false, n3); (true, n4)].
Example dx_sync_example :
  match ex_sync with
  | Ret (bs, os) =>
      Some (bs, map (option_map (fun o => (fst (fst o), DxInst.val (snd (fst o)), DxInst.val (a_id _ (snd o)), a_value _ (snd o)))) os)
  | Panic => None
  end = Some ([true; false], [Some (false, 1234, 9, 1000000)%N; None]).
Proof. vm_compute. reflexivity. Qed.

(** A two-block message under that instance, its ciphertext, and a changed ciphertext which
    is detected. *)
Definition ex_key := [DxInst.mk 11; DxInst.mk 12].
Definition ex_pt := [[DxInst.mk 1; DxInst.mk 2; DxInst.mk 3]; [DxInst.mk 4; DxInst.mk 5; DxInst.mk 6]].
Definition ex_enc := encrypt DxInst.Fq DxInst.fzero DxInst.fadd DxInst.permute 4 DxInst.init ex_key [DxInst.mk 8] ex_pt.
Definition ex_dec := decrypt DxInst.Fq DxInst.fzero DxInst.fadd DxInst.fsub DxInst.feqb DxInst.permute 4 DxInst.init ex_key [DxInst.mk 8].
Example dx_round_trip_example :
  match ex_enc with
  | Ret c => match ex_dec c with Ret (b, p) => (b, map (map DxInst.val) p) | Panic => (false, []) end
  | Panic => (false, [])
  end = (true, [[1; 2; 3]; [4; 5; 6]]%N) /\
  match ex_enc with
  | Ret c => map (map DxInst.val) (c_message c) <> [[1; 2; 3]; [4; 5; 6]]%N
  | Panic => False
  end.
Proof. split; vm_compute; [reflexivity|discriminate]. Qed.

(** Two different one-block ciphertexts with the same tag, accepted: the toy permutation
    collides in the tag element, without colliding as a whole. *)
Example dx_collision_example : exists c c' t p p',
  c <> c' /\
  decrypt bool false xorb xorb eqb bperm 4 binit [true; true] [] (Ciphertext t [c]) = Ret (true, p) /\
  decrypt bool false xorb xorb eqb bperm 4 binit [true; true] [] (Ciphertext t [c']) = Ret (true, p') /\
  length c = 3 /\ length c' = 3 /\ (forall st, length (bperm st) = length st) /\
  (forall x y, eqb x y = true <-> x = y) /\ (forall s m, xorb (xorb s m) s = m).
Proof.
  exists [true; false; true], [true; false; false], false. do 2 eexists.
  split; [discriminate|]. split; [vm_compute; reflexivity|]. split; [vm_compute; reflexivity|].
  split; [reflexivity|]. split; [reflexivity|].
  split; [intros [|a [|b [|c [|d [|e st]]]]]; reflexivity|].
  split; [apply eqb_true_iff|intros [|] [|]; reflexivity].
Qed.

Print Assumptions c34_round_trip.
Print Assumptions c34_tag_detected.
Print Assumptions c34_change_detected.
Print Assumptions c34_single_block.
Print Assumptions c34_long_block_refuted.
Print Assumptions c34_short_block_panics.
Print Assumptions c34_incoming_note.
Print Assumptions c34_light_note.
Print Assumptions c34_outgoing_note.
Print Assumptions c49_sync_stopped.
Print Assumptions c49_nullifier_stopped.
Print Assumptions c49_sync_total_partial.
Print Assumptions c49_refuted.
Print Assumptions c50_setup_binding_partial.
Print Assumptions c50_padding_refuted.
