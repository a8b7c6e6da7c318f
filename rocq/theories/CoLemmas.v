(** Lemmas about the container model. *)
From Coq Require Import List NArith Lia Bool Arith.
From Verif Require Import CoModel CoSpec.
Import ListNotations.
Open Scope nat_scope.

Lemma le_len : forall n v, length (le n v) = n.
Proof. induction n; intros v; cbn [le length]; auto. Qed.
Lemma un_le_le : forall n v, (v < 256 ^ N.of_nat n)%N -> un_le (le n v) = v.
Proof.
  induction n as [|n IH]; intros v H.
  - cbn in *. lia.
  - cbn [le un_le]. rewrite IH.
    + rewrite N.add_comm. symmetry. apply N.div_mod. discriminate.
    + rewrite Nat2N.inj_succ, N.pow_succ_r' in H. apply N.div_lt_upper_bound; [discriminate|exact H].
Qed.
Lemma le_wfb : forall n v, wfb (le n v).
Proof. induction n; intros v; cbn [le]; constructor; [apply N.mod_lt; discriminate|apply IHn]. Qed.
Lemma le_un_le : forall bs, wfb bs -> le (length bs) (un_le bs) = bs.
Proof.
  induction bs as [|b r IH]; intros W; [reflexivity|].
  inversion W as [|? ? Hb Hr]; subst. cbn [length le un_le]. f_equal.
  - rewrite (N.mul_comm 256), N.mod_add by discriminate. apply N.mod_small; exact Hb.
  - rewrite (N.mul_comm 256), N.div_add by discriminate.
    rewrite (N.div_small b 256 Hb), N.add_0_l. apply IH; exact Hr.
Qed.
Lemma un_le_lt : forall bs, wfb bs -> (un_le bs < 256 ^ N.of_nat (length bs))%N.
Proof.
  induction bs as [|b r IH]; intros W; [cbn; lia|].
  inversion W as [|? ? Hb Hr]; subst. cbn [length un_le].
  rewrite Nat2N.inj_succ, N.pow_succ_r'. specialize (IH Hr). nia.
Qed.
Lemma be_len : forall n v, length (be n v) = n.
Proof. intros. unfold be. rewrite rev_length. apply le_len. Qed.
Lemma un_be_be : forall n v, (v < 256 ^ N.of_nat n)%N -> un_be (be n v) = v.
Proof. intros. unfold un_be, be. rewrite rev_involutive. apply un_le_le; assumption. Qed.
Lemma be_un_be : forall bs, wfb bs -> be (length bs) (un_be bs) = bs.
Proof.
  intros bs W. unfold be, un_be. rewrite <- (rev_length bs), le_un_le.
  - apply rev_involutive.
  - apply Forall_rev; exact W.
Qed.

Lemma byte_list8 : forall (f : list N), length f = 8 ->
  exists a b c d e g h i, f = [a; b; c; d; e; g; h; i].
Proof.
  intros f H. do 8 (destruct f as [|? f]; [discriminate|]). destruct f; [|discriminate]. repeat eexists.
Qed.

Lemma bytes_eqb_true : forall a b, bytes_eqb a b = true <-> a = b.
Proof. intros. unfold bytes_eqb. destruct (list_eq_dec N.eq_dec a b); split; congruence. Qed.

Lemma slice_len : forall bs i j, i <= j -> j <= length bs -> length (slice bs i j) = j - i.
Proof. intros. unfold slice. rewrite firstn_length, skipn_length. lia. Qed.
Lemma slice_app3 : forall (a b c : bytes) i j, i = length a -> j = i + length b ->
  slice (a ++ b ++ c) i j = b.
Proof.
  intros a b c i j -> ->. unfold slice. rewrite skipn_app, skipn_all, Nat.sub_diag. cbn [skipn app].
  replace (length a + length b - length a) with (length b) by lia.
  rewrite firstn_app, firstn_all, Nat.sub_diag, firstn_O, app_nil_r. reflexivity.
Qed.
Lemma nth_error_first : forall n (bs : bytes) k, k < n -> nth_error (firstn n bs) k = nth_error bs k.
Proof.
  induction n as [|n IH]; intros bs k H; [lia|].
  destruct bs as [|b bs]; [reflexivity|]. cbn [firstn]. destruct k; [reflexivity|].
  cbn [nth_error]. apply IH. lia.
Qed.
Lemma nth_error_slice : forall (bs : bytes) i j k, k < j - i ->
  nth_error (slice bs i j) k = nth_error bs (i + k).
Proof.
  intros bs i j k H. unfold slice. rewrite nth_error_first by exact H.
  revert bs k H. induction i as [|i IH]; intros bs k H; cbn [skipn Nat.add].
  - destruct bs; reflexivity.
  - destruct bs as [|b bs]; [destruct k; reflexivity|]. cbn [nth_error]. apply IH. lia.
Qed.

Lemma nth_error_same : forall (a b : bytes), length a = length b ->
  (forall k, k < length a -> nth_error a k = nth_error b k) -> a = b.
Proof.
  induction a as [|x a IH]; intros [|y b] L H; try discriminate; [reflexivity|].
  f_equal.
  - assert (E := H 0 ltac:(cbn; lia)). cbn in E. congruence.
  - apply IH; [cbn in L; lia|]. intros k Hk. apply (H (S k)). cbn; lia.
Qed.
Lemma field_slice : forall (buf f : bytes) i j, i + length f = j -> j <= length buf ->
  (field buf i f <-> slice buf i j = f).
Proof.
  intros buf f i j E L. split.
  - intros H. apply nth_error_same.
    + rewrite slice_len; lia.
    + intros k Hk. rewrite slice_len in Hk by lia.
      rewrite nth_error_slice by lia.
      destruct (nth_error f k) as [x|] eqn:X; [apply H; exact X|].
      apply nth_error_None in X. lia.
  - intros <- k x Hx.
    assert (k < j - i).
    { assert (k < length (slice buf i j)) by (apply nth_error_Some; congruence).
      rewrite slice_len in *; lia. }
    rewrite nth_error_slice in Hx by lia. exact Hx.
Qed.
Lemma byte_at_some : forall buf i x, i < length buf -> (nth_error buf i = Some x <-> byte_at buf i = x).
Proof.
  intros buf i x H. unfold byte_at. split.
  - intros E. apply nth_error_nth with (d := 0%N) in E. exact E.
  - intros <-. apply nth_error_nth'. exact H.
Qed.
Lemma byte_at_slice : forall buf i j k, k < j - i -> byte_at (slice buf i j) k = byte_at buf (i + k).
Proof.
  intros buf i j k H. unfold byte_at.
  pose proof (nth_error_slice buf i j k H) as E.
  destruct (nth_error buf (i + k)) as [x|] eqn:X.
  - rewrite (nth_error_nth _ _ 0%N E), (nth_error_nth _ _ 0%N X). reflexivity.
  - apply nth_error_None in X, E. rewrite !nth_overflow by assumption. reflexivity.
Qed.

Lemma un_be_fold : forall f acc, fold_left (fun a x => (a * 256 + x)%N) f acc
  = (acc * 256 ^ N.of_nat (length f) + un_be f)%N.
Proof.
  intros f. unfold un_be. induction f as [|x f IH]; intros acc; [cbn; lia|].
  cbn [fold_left length rev]. rewrite IH.
  assert (U : forall l y, un_le (l ++ [y]) = (un_le l + y * 256 ^ N.of_nat (length l))%N).
  { clear. induction l as [|z l IH]; intros y; [cbn; lia|].
    cbn [app un_le length]. rewrite IH, Nat2N.inj_succ, N.pow_succ_r'. nia. }
  rewrite U, rev_length, Nat2N.inj_succ, N.pow_succ_r'. nia.
Qed.
Lemma be64_at_slice : forall buf i, i + 8 <= length buf -> be64_at buf i = un_be (slice buf i (i + 8)).
Proof.
  intros buf i L. unfold be64_at.
  assert (E : (fold_left (fun acc j => acc * 256 + nth (i + j) buf 0) (seq 0 8) 0
           = fold_left (fun a x => a * 256 + x) (map (fun j => nth (i + j) buf 0%N) (seq 0 8)) 0)%N) by reflexivity.
  rewrite E, un_be_fold. rewrite N.mul_0_l, N.add_0_l. f_equal.
  apply nth_error_same.
  - rewrite slice_len, map_length, seq_length; lia.
  - intros k Hk. rewrite map_length, seq_length in Hk.
    rewrite nth_error_slice by lia.
    rewrite (nth_error_nth' buf 0%N) by lia.
    do 8 (destruct k as [|k]; [reflexivity|]). lia.
Qed.

(** * Headers *)

Lemma config_deserialize_iff : forall buf c, length buf = 4 ->
  (config_deserialize buf = Ok c <->
   byte_at buf 0 = cipher_byte (c_cipher c) /\ byte_at buf 1 = 1%N /\
   byte_at buf 2 = variant_byte (c_variant c)).
Proof.
  intros buf [ci k v] L. unfold config_deserialize. rewrite L. cbn [Nat.ltb Nat.leb].
  cbn [c_cipher c_variant c_kdf]. destruct k.
  destruct (N.eqb_spec (byte_at buf 0) (cipher_byte Chacha20Poly1305)) as [H0|H0];
    [|destruct (N.eqb_spec (byte_at buf 0) (cipher_byte Aes256Gcm)) as [H0'|H0']]; cbn [obind];
  try (destruct (N.eqb_spec (byte_at buf 1) (kdf_byte Pbkdf2)) as [H1|H1]; cbn [obind];
    [destruct (N.eqb_spec (byte_at buf 2) (variant_byte Weak)) as [H2|H2];
      [|destruct (N.eqb_spec (byte_at buf 2) (variant_byte Strong)) as [H2'|H2']]; cbn [obind] | ]);
  (split; [intros E; try discriminate E; injection E as E1 E2; subst; auto
          |intros (A & B & C); destruct ci, v; cbn in *; congruence]).
Qed.
Lemma config_deserialize_err : forall buf, length buf = 4 ->
  (exists c, config_deserialize buf = Ok c) \/ config_deserialize buf = Err UnrecognizedFormat.
Proof.
  intros buf L. unfold config_deserialize. rewrite L. cbn [Nat.ltb Nat.leb].
  destruct (N.eqb (byte_at buf 0) _); [|destruct (N.eqb (byte_at buf 0) _)]; cbn [obind]; auto;
  (destruct (N.eqb (byte_at buf 1) _); cbn [obind]; auto;
   destruct (N.eqb (byte_at buf 2) _); [|destruct (N.eqb (byte_at buf 2) _)]; cbn [obind]; eauto).
Qed.

Lemma header_deserialize_iff : forall buf h, header_deserialize buf = Ok h <-> header_layout buf h.
Proof.
  intros buf h. unfold header_deserialize, header_layout.
  destruct (Nat.ltb_spec (length buf) header_size) as [L|L]; unfold header_size in L.
  { split; [discriminate|]. intros (A & _). lia. }
  assert (S48 : length (slice buf 4 8) = 4) by (rewrite slice_len; lia).
  pose proof (fun c => config_deserialize_iff (slice buf 4 8) c S48) as C.
  assert (B0 : byte_at (slice buf 4 8) 0 = byte_at buf 4) by (apply byte_at_slice; lia).
  assert (B1 : byte_at (slice buf 4 8) 1 = byte_at buf 5) by (apply byte_at_slice; lia).
  assert (B2 : byte_at (slice buf 4 8) 2 = byte_at buf 6) by (apply byte_at_slice; lia).
  rewrite B0, B1, B2 in C.
  rewrite !byte_at_some by lia.
  rewrite (field_slice buf [127; 192; 10]%N 0 3) by (cbn [length]; lia).
  destruct (bytes_eqb (slice buf 0 3) magic) eqn:M; cbn [negb].
  2:{ split; [discriminate|]. intros (_ & X & _). exfalso.
      assert (bytes_eqb (slice buf 0 3) magic = true) by (apply bytes_eqb_true; exact X). congruence. }
  apply bytes_eqb_true in M.
  destruct (N.eqb_spec (byte_at buf 3) version1) as [V|V]; cbn [negb].
  2:{ split; [discriminate|]. intros (_ & _ & X & _). contradiction. }
  destruct h as [c salt nonce n]. cbn [h_config h_salt h_nonce h_length]. split.
  - intros E. destruct (config_deserialize (slice buf 4 8)) as [c'|e|] eqn:D; cbn [obind] in E; try discriminate.
    injection E as -> E1 E2 E3. destruct (proj1 (C c) eq_refl) as (X & Y & Z).
    repeat split.
    + exact L.
    + exact M.
    + exact V.
    + rewrite X. destruct (c_cipher c); reflexivity.
    + exact Y.
    + rewrite Z. destruct (c_variant c); reflexivity.
    + rewrite <- E1, slice_len; lia.
    + rewrite (field_slice buf salt 8 24); [exact E1| |lia]. rewrite <- E1, slice_len; lia.
    + rewrite <- E2, slice_len; lia.
    + rewrite (field_slice buf nonce 24 36); [exact E2| |lia]. rewrite <- E2, slice_len; lia.
    + rewrite be64_at_slice by lia. rewrite <- E3. reflexivity.
  - intros (_ & _ & _ & X & Y & Z & S1 & F1 & S2 & F2 & G).
    assert (D : config_deserialize (slice buf 4 8) = Ok c).
    { apply C. split; [rewrite X; destruct (c_cipher c); reflexivity|].
      split; [exact Y|]. rewrite Z. destruct (c_variant c); reflexivity. }
    rewrite D. cbn [obind]. apply (field_slice buf salt 8 24) in F1; [|lia|lia].
    apply (field_slice buf nonce 24 36) in F2; [|lia|lia].
    rewrite F1, F2. rewrite be64_at_slice in G by lia. cbn [Nat.add] in G.
    unfold header_size. rewrite G. reflexivity.
Qed.
Lemma header_deserialize_err : forall buf,
  (exists h, header_deserialize buf = Ok h) \/ header_deserialize buf = Err UnrecognizedFormat.
Proof.
  intros buf. unfold header_deserialize.
  destruct (Nat.ltb_spec (length buf) header_size) as [L|L]; [auto|]. unfold header_size in L.
  destruct (negb _); [auto|]. destruct (negb _); [auto|].
  destruct (config_deserialize_err (slice buf 4 8)) as [[c E]|E]; [rewrite slice_len; lia| |];
  rewrite E; cbn [obind]; eauto.
Qed.

Lemma header_serialize_len : forall h, header_ok h -> length (header_serialize h) = 44.
Proof.
  intros h (A & B & _). unfold header_serialize. rewrite !app_length, be_len, A, B. reflexivity.
Qed.
Lemma header_serialize_layout : forall h rest, header_ok h -> header_layout (header_serialize h ++ rest) h.
Proof.
  intros h rest Hok. pose proof (header_serialize_len h Hok) as Len. destruct Hok as (A & B & C).
  apply header_deserialize_iff. unfold header_deserialize.
  assert (LL : length (header_serialize h ++ rest) = 44 + length rest) by (rewrite app_length, Len; reflexivity).
  destruct (Nat.ltb_spec (length (header_serialize h ++ rest)) header_size) as [L|L];
    [unfold header_size in L; lia|].
  unfold header_serialize in *. rewrite <- !app_assoc in *.
  assert (M : slice (magic ++ [version1] ++ config_serialize (h_config h) ++ h_salt h ++ h_nonce h ++ be 8 (h_length h) ++ rest) 0 3 = magic) by reflexivity.
  assert (V : byte_at (magic ++ [version1] ++ config_serialize (h_config h) ++ h_salt h ++ h_nonce h ++ be 8 (h_length h) ++ rest) 3 = version1) by reflexivity.
  assert (K : slice (magic ++ [version1] ++ config_serialize (h_config h) ++ h_salt h ++ h_nonce h ++ be 8 (h_length h) ++ rest) 4 8 = config_serialize (h_config h)).
  { rewrite (app_assoc magic). apply slice_app3; reflexivity. }
  assert (S1 : slice (magic ++ [version1] ++ config_serialize (h_config h) ++ h_salt h ++ h_nonce h ++ be 8 (h_length h) ++ rest) 8 24 = h_salt h).
  { rewrite (app_assoc magic), (app_assoc (magic ++ _)). apply slice_app3; [reflexivity|rewrite A; reflexivity]. }
  assert (S2 : slice (magic ++ [version1] ++ config_serialize (h_config h) ++ h_salt h ++ h_nonce h ++ be 8 (h_length h) ++ rest) 24 36 = h_nonce h).
  { rewrite (app_assoc magic), (app_assoc (magic ++ _)), (app_assoc ((magic ++ _) ++ _)).
    apply slice_app3; [rewrite !app_length, A; reflexivity|rewrite B; reflexivity]. }
  assert (S3 : slice (magic ++ [version1] ++ config_serialize (h_config h) ++ h_salt h ++ h_nonce h ++ be 8 (h_length h) ++ rest) 36 header_size = be 8 (h_length h)).
  { rewrite (app_assoc magic), (app_assoc (magic ++ _)), (app_assoc ((magic ++ _) ++ _)), (app_assoc (((magic ++ _) ++ _) ++ _)).
    apply slice_app3; [rewrite !app_length, A, B; reflexivity|rewrite be_len; reflexivity]. }
  rewrite M, V, K, S1, S2, S3. unfold version1 at 1. rewrite (proj2 (bytes_eqb_true _ _) eq_refl), N.eqb_refl.
  cbn [negb]. rewrite un_be_be by exact C.
  destruct h as [[ci [] v] salt nonce n]. destruct ci, v; reflexivity.
Qed.

Lemma mini_deserialize_iff : forall buf h, mini_header_deserialize buf = Ok h <-> mini_layout buf h.
Proof.
  intros buf [nonce n]. unfold mini_header_deserialize, mini_layout. cbn [m_nonce m_length].
  destruct (Nat.ltb_spec (length buf) mini_header_size) as [L|L]; unfold mini_header_size in L.
  { split; [discriminate|]. intros (A & _). lia. }
  rewrite be64_at_slice by lia. cbn [Nat.add]. unfold mini_header_size. split.
  - intros E. injection E as E1 E2. split; [lia|]. split; [|split].
    + rewrite <- E1, slice_len; lia.
    + apply (field_slice buf nonce 0 12); [rewrite <- E1, slice_len; lia|lia|exact E1].
    + congruence.
  - intros (_ & A & F & G). apply (field_slice buf nonce 0 12) in F; [|lia|lia]. rewrite F, G. reflexivity.
Qed.
Lemma mini_serialize_deserialize : forall h rest, length (m_nonce h) = 12 -> (m_length h < 2 ^ 64)%N ->
  mini_header_deserialize (mini_header_serialize h ++ rest) = Ok h.
Proof.
  intros [nonce n] rest A B. cbn [m_nonce m_length] in *.
  unfold mini_header_deserialize, mini_header_serialize. cbn [m_nonce m_length].
  destruct (Nat.ltb_spec (length ((nonce ++ be 8 n) ++ rest)) mini_header_size) as [L|L].
  { rewrite !app_length, be_len, A in L. unfold mini_header_size in L. lia. }
  rewrite <- app_assoc.
  assert (E : slice (nonce ++ be 8 n ++ rest) 0 12 = nonce) by (apply (slice_app3 []); cbn [length]; lia).
  rewrite E.
  rewrite (slice_app3 nonce (be 8 n) rest) by (rewrite ?be_len, ?A; reflexivity).
  rewrite un_be_be by exact B. reflexivity.
Qed.

(** * Prefixes *)

Lemma firstn_exact : forall {A} (a b : list A) n, n = length a -> firstn n (a ++ b) = a.
Proof. intros A a b n ->. rewrite firstn_app, firstn_all, Nat.sub_diag, firstn_O, app_nil_r. reflexivity. Qed.
Lemma skipn_exact : forall {A} (a b : list A) n, n = length a -> skipn n (a ++ b) = b.
Proof. intros A a b n ->. rewrite skipn_app, skipn_all, Nat.sub_diag. reflexivity. Qed.

Lemma prefix_serialize_eq : forall h tag, header_ok h ->
  prefix_serialize (prefix_new h) tag = header_serialize h ++ tag.
Proof.
  intros h tag H. unfold prefix_serialize, prefix_new. cbn [p_raw]. f_equal.
  apply firstn_exact. symmetry. apply header_serialize_len; exact H.
Qed.
Lemma prefix_prefix_eq : forall h h' t, header_ok h ->
  prefix_prefix {| p_header := h'; p_raw := header_serialize h ++ t |} = header_serialize h.
Proof.
  intros h h' t H. unfold prefix_prefix. cbn [p_raw].
  apply firstn_exact. symmetry. apply header_serialize_len; exact H.
Qed.
Lemma prefix_deserialize_eq : forall h tag rest, header_ok h -> length tag = 16 ->
  prefix_deserialize (header_serialize h ++ tag ++ rest)
  = Ok {| p_header := h; p_raw := header_serialize h ++ tag |}.
Proof.
  intros h tag rest H T. pose proof (header_serialize_len h H) as Len. unfold prefix_deserialize.
  rewrite (proj2 (header_deserialize_iff _ _) (header_serialize_layout h (tag ++ rest) H)).
  cbn [obind].
  destruct (Nat.ltb_spec (length (header_serialize h ++ tag ++ rest)) (header_size + tag_size)) as [L|L].
  { exfalso. rewrite !app_length, Len, T in L. unfold header_size, tag_size in L. lia. }
  assert (E1 : slice (header_serialize h ++ tag ++ rest) 0 header_size = header_serialize h)
    by (apply (slice_app3 []); [reflexivity|rewrite Len; reflexivity]).
  assert (E2 : slice (header_serialize h ++ tag ++ rest) header_size (header_size + tag_size) = tag)
    by (apply slice_app3; [rewrite Len|rewrite T]; reflexivity).
  rewrite E1, E2. reflexivity.
Qed.
Lemma prefix_tag_eq : forall h h' tag, header_ok h -> length tag = 16 ->
  prefix_tag {| p_header := h'; p_raw := header_serialize h ++ tag |} = tag.
Proof.
  intros h h' tag H T. unfold prefix_tag. cbn [p_raw]. rewrite <- (app_nil_r tag) at 1.
  apply slice_app3; [rewrite (header_serialize_len h H)|rewrite T]; reflexivity.
Qed.
Lemma read_exact_eq : forall a b n, n = length a -> read_exact n (a ++ b) = Ok (a, b).
Proof.
  intros a b n E. unfold read_exact.
  destruct (Nat.ltb_spec (length (a ++ b)) n) as [L|L]; [rewrite app_length in L; lia|].
  rewrite firstn_exact, skipn_exact by exact E. reflexivity.
Qed.
Lemma prefix_deserialize_from_eq : forall h tag rest, header_ok h -> length tag = 16 ->
  prefix_deserialize_from (header_serialize h ++ tag ++ rest)
  = Ok ({| p_header := h; p_raw := header_serialize h ++ tag |}, rest).
Proof.
  intros h tag rest H T. unfold prefix_deserialize_from.
  rewrite read_exact_eq by (symmetry; apply header_serialize_len; exact H). cbn [obind].
  rewrite (proj2 (header_deserialize_iff _ _) (header_serialize_layout h (repeat 0%N tag_size) H)). cbn [obind].
  rewrite read_exact_eq by (rewrite T; reflexivity). reflexivity.
Qed.

Definition mini_ok (h : mini_header) : Prop := length (m_nonce h) = 12 /\ (m_length h < 2 ^ 64)%N.
Lemma mini_serialize_len : forall h, mini_ok h -> length (mini_header_serialize h) = 20.
Proof. intros h (A & _). unfold mini_header_serialize. rewrite app_length, be_len, A. reflexivity. Qed.
Lemma mini_prefix_serialize_eq : forall h tag, mini_ok h ->
  mini_prefix_serialize (mini_prefix_new h) tag = mini_header_serialize h ++ tag.
Proof.
  intros h tag H. unfold mini_prefix_serialize, mini_prefix_new. cbn [mp_raw]. f_equal.
  apply firstn_exact. symmetry. apply mini_serialize_len; exact H.
Qed.
Lemma mini_prefix_prefix_eq : forall h h' t, mini_ok h ->
  mini_prefix_prefix {| mp_header := h'; mp_raw := mini_header_serialize h ++ t |} = mini_header_serialize h.
Proof.
  intros h h' t H. unfold mini_prefix_prefix. cbn [mp_raw].
  apply firstn_exact. symmetry. apply mini_serialize_len; exact H.
Qed.
Lemma mini_prefix_tag_eq : forall h h' tag, mini_ok h -> length tag = 16 ->
  mini_prefix_tag {| mp_header := h'; mp_raw := mini_header_serialize h ++ tag |} = tag.
Proof.
  intros h h' tag H T. unfold mini_prefix_tag. cbn [mp_raw]. rewrite <- (app_nil_r tag) at 1.
  apply slice_app3; [rewrite (mini_serialize_len h H)|rewrite T]; reflexivity.
Qed.
Lemma mini_prefix_deserialize_eq : forall h tag rest, mini_ok h -> length tag = 16 ->
  mini_prefix_deserialize (mini_header_serialize h ++ tag ++ rest)
  = Ok {| mp_header := h; mp_raw := mini_header_serialize h ++ tag |}.
Proof.
  intros h tag rest H T. pose proof (mini_serialize_len h H) as Len. unfold mini_prefix_deserialize.
  rewrite (mini_serialize_deserialize h (tag ++ rest) (proj1 H) (proj2 H)).
  cbn [obind].
  destruct (Nat.ltb_spec (length (mini_header_serialize h ++ tag ++ rest)) mini_prefix_size) as [L|L].
  { exfalso. rewrite !app_length, Len, T in L. unfold mini_prefix_size, mini_header_size, tag_size in L. lia. }
  assert (E1 : slice (mini_header_serialize h ++ tag ++ rest) 0 mini_header_size = mini_header_serialize h)
    by (apply (slice_app3 []); [reflexivity|rewrite Len; reflexivity]).
  assert (E2 : slice (mini_header_serialize h ++ tag ++ rest) mini_header_size (mini_header_size + tag_size) = tag)
    by (apply slice_app3; [rewrite Len|rewrite T]; reflexivity).
  rewrite E1, E2. reflexivity.
Qed.
Lemma mini_prefix_deserialize_from_eq : forall h tag rest, mini_ok h -> length tag = 16 ->
  mini_prefix_deserialize_from (mini_header_serialize h ++ tag ++ rest)
  = Ok ({| mp_header := h; mp_raw := mini_header_serialize h ++ tag |}, rest).
Proof.
  intros h tag rest H T. unfold mini_prefix_deserialize_from.
  rewrite read_exact_eq by (symmetry; apply mini_serialize_len; exact H). cbn [obind].
  rewrite (mini_serialize_deserialize h (repeat 0%N tag_size) (proj1 H) (proj2 H)). cbn [obind].
  rewrite read_exact_eq by (rewrite T; reflexivity). reflexivity.
Qed.

(** * Containers *)

Section Containers.
  Variable kdf : bytes -> bytes -> N -> bytes.
  Variable seal : cipher -> bytes -> bytes -> bytes -> bytes -> option (bytes * bytes).
  Variable open : cipher -> bytes -> bytes -> bytes -> bytes -> bytes -> option bytes.
  Variable Rng : Type.
  Variable from_seed : bytes -> Rng.
  Variable fill : Rng -> nat -> bytes * Rng.
  Variable mem : N.
  Hypothesis SEAL : aead_ok seal open.
  Hypothesis FILL : fill_ok fill.

  Lemma draw_len : forall k th salt nonce th', draw Rng fill k th = Ok ((salt, nonce), th') ->
    length salt = 16 /\ length nonce = 12.
  Proof.
    clear - FILL. intros k th salt nonce th' H. unfold draw in H. destruct (k_rng k) as [|r|].
    - pose proof (FILL th 16) as A. destruct (fill th 16) as [s t1].
      pose proof (FILL t1 12) as B. destruct (fill t1 12) as [nn t2]. cbn [fst] in *.
      injection H as -> -> _. auto.
    - pose proof (FILL r 16) as A. destruct (fill r 16) as [s t1].
      pose proof (FILL t1 12) as B. destruct (fill t1 12) as [nn t2]. cbn [fst] in *.
      injection H as -> -> _. auto.
    - discriminate.
  Qed.

  (** What [encrypt] returns, spelled out. *)
  Lemma encrypt_inv : forall k th data pre ct th',
    (N.of_nat (length data) < 2 ^ 64)%N ->
    encrypt kdf seal Rng fill k th data = Ok ((pre, ct), th') ->
    exists h tag, header_ok h /\ length tag = 16 /\ length ct = length data /\
      h_config h = k_config k /\ h_length h = N.of_nat (length data) /\
      draw Rng fill k th = Ok ((h_salt h, h_nonce h), th') /\
      pre = header_serialize h ++ tag /\
      seal (c_cipher (k_config k)) (kdf (h_salt h) (k_password k) (kdf_iterations (k_config k)))
        (h_nonce h) (header_serialize h) data = Some (ct, tag).
  Proof.
    clear - SEAL FILL. intros k th data pre ct th' L H. unfold encrypt in H.
    destruct (draw Rng fill k th) as [[[salt nonce] t1]|e|] eqn:D; cbn [obind] in H; try discriminate.
    destruct (draw_len _ _ _ _ _ D) as [A B].
    set (h := {| h_config := k_config k; h_salt := salt; h_nonce := nonce; h_length := N.of_nat (length data) |}) in *.
    assert (Hok : header_ok h) by (split; [exact A|split; [exact B|exact L]]).
    unfold prefix_new in H at 1. rewrite prefix_prefix_eq in H by exact Hok.
    destruct (c_kdf (k_config k)).
    destruct (seal (c_cipher (k_config k)) (kdf salt (k_password k) (kdf_iterations (k_config k))) nonce
                (header_serialize h) data) as [[c t]|] eqn:E; [|discriminate].
    destruct (SEAL _ _ _ _ _ _ _ E) as (X & Y & _).
    rewrite prefix_serialize_eq in H by exact Hok. injection H as H1 H2 H3. subst pre c t1.
    exists h, t. split; [exact Hok|]. repeat (split; [first [assumption|reflexivity]|]). exact E.
  Qed.

  Lemma decrypt_parsed_eq : forall k h tag ct data more,
    header_ok h -> length tag = 16 -> length ct = length data -> h_length h = N.of_nat (length data) ->
    seal (c_cipher (h_config h)) (kdf (h_salt h) (k_password k) (kdf_iterations (h_config h)))
        (h_nonce h) (header_serialize h) data = Some (ct, tag) ->
    decrypt_parsed kdf open Rng k (ct ++ more) {| p_header := h; p_raw := header_serialize h ++ tag |}
    = Ok (data ++ more).
  Proof.
    clear - SEAL. intros k h tag ct data more Hok T L N E. unfold decrypt_parsed. cbn [p_header].
    rewrite N. destruct (N.ltb_spec (N.of_nat (length (ct ++ more))) (N.of_nat (length data))) as [X|X].
    { rewrite app_length in X. lia. }
    rewrite Nat2N.id. rewrite firstn_exact, skipn_exact by lia.
    rewrite prefix_prefix_eq, prefix_tag_eq by assumption.
    destruct (c_kdf (h_config h)). destruct (SEAL _ _ _ _ _ _ _ E) as (_ & _ & ->). reflexivity.
  Qed.

  Lemma mini_encrypt_inv : forall m data pre ct,
    (N.of_nat (length data) < 2 ^ 64)%N ->
    mini_encrypt seal Rng fill m data = Ok (pre, ct) ->
    exists h tag, mini_ok h /\ length tag = 16 /\ length ct = length data /\
      m_nonce h = fst (fill (mk_rng m) 12) /\ m_length h = N.of_nat (length data) /\
      pre = mini_header_serialize h ++ tag /\
      seal (c_cipher (mk_config m)) (mk_key m) (m_nonce h) (mini_header_serialize h) data = Some (ct, tag).
  Proof.
    clear - SEAL FILL. intros m data pre ct L H. unfold mini_encrypt in H.
    pose proof (FILL (mk_rng m) 12) as A. destruct (fill (mk_rng m) 12) as [nonce r']. cbn [fst] in *.
    set (h := {| m_nonce := nonce; m_length := N.of_nat (length data) |}) in *.
    assert (Hok : mini_ok h) by (split; [exact A|exact L]).
    unfold mini_prefix_new in H at 1. rewrite mini_prefix_prefix_eq in H by exact Hok.
    destruct (seal (c_cipher (mk_config m)) (mk_key m) nonce (mini_header_serialize h) data) as [[c t]|] eqn:E; [|discriminate].
    destruct (SEAL _ _ _ _ _ _ _ E) as (X & Y & _).
    rewrite mini_prefix_serialize_eq in H by exact Hok. injection H as H1 H2. subst pre c.
    exists h, t. split; [exact Hok|]. repeat (split; [first [assumption|reflexivity]|]). exact E.
  Qed.

  Lemma mini_decrypt_parsed_eq : forall m h tag ct data more,
    mini_ok h -> length tag = 16 -> length ct = length data -> m_length h = N.of_nat (length data) ->
    seal (c_cipher (mk_config m)) (mk_key m) (m_nonce h) (mini_header_serialize h) data = Some (ct, tag) ->
    mini_decrypt_parsed open Rng m (ct ++ more) {| mp_header := h; mp_raw := mini_header_serialize h ++ tag |}
    = Ok (data ++ more).
  Proof.
    clear - SEAL. intros m h tag ct data more Hok T L N E. unfold mini_decrypt_parsed. cbn [mp_header].
    rewrite N. destruct (N.ltb_spec (N.of_nat (length (ct ++ more))) (N.of_nat (length data))) as [X|X].
    { rewrite app_length in X. lia. }
    rewrite Nat2N.id. rewrite firstn_exact, skipn_exact by lia.
    rewrite mini_prefix_prefix_eq, mini_prefix_tag_eq by assumption.
    destruct (SEAL _ _ _ _ _ _ _ E) as (_ & _ & ->). reflexivity.
  Qed.

  (** A block of data that the program can hold in memory. *)
  Definition holds (n : nat) : Prop := (N.of_nat n <= mem)%N /\ (N.of_nat n <= isize_max)%N.
  Lemma holds_cap : forall n, holds n -> with_capacity mem (N.of_nat n) = Ok (N.of_nat n).
  Proof.
    clear. intros n [A B]. unfold with_capacity.
    destruct (N.ltb_spec isize_max (N.of_nat n)); [lia|].
    destruct (N.ltb_spec mem (N.of_nat n)); [lia|]. reflexivity.
  Qed.
  Lemma holds_64 : forall n, holds n -> (N.of_nat n < 2 ^ 64)%N /\ (100 + N.of_nat n <= usize_max)%N.
  Proof.
    clear. intros n [_ B].
    replace isize_max with 9223372036854775807%N in B by reflexivity.
    replace usize_max with 18446744073709551615%N by reflexivity.
    replace (2 ^ 64)%N with 18446744073709551616%N by reflexivity. lia.
  Qed.
End Containers.
