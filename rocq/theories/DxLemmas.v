(** Proofs about the duplex sponge. *)
From Coq Require Import List NArith Arith Bool Lia.
From Verif Require Import DxModel DxSpec.
Import ListNotations.

Lemma bind_ret : forall A B (x : res A) (f : A -> res B) y,
  bind x f = Ret y -> exists a, x = Ret a /\ f a = Ret y.
Proof. intros A B [a|] f y H; [exists a; auto|discriminate]. Qed.

Lemma concat_chunks : forall A (w n : nat) (l : list A),
  n * w <= length l ->
  concat (map (fun i => firstn w (skipn (i * w) l)) (seq 0 n)) = firstn (n * w) l.
Proof.
  intros A w n. induction n as [|n IH]; intros l H.
  - reflexivity.
  - rewrite seq_S, map_app, concat_app, IH by lia. cbn [map concat]. rewrite app_nil_r.
    change (0 + n) with n.
    rewrite <- (firstn_skipn (n * w) (firstn (S n * w) l)).
    rewrite firstn_firstn, Nat.min_l by nia. f_equal.
    rewrite skipn_firstn_comm. f_equal. nia.
Qed.

Lemma chunks_len : forall A (w n : nat) (l : list A),
  n * w <= length l ->
  Forall (fun b => length b = w) (map (fun i => firstn w (skipn (i * w) l)) (seq 0 n)).
Proof.
  intros A w n l H. apply Forall_forall. intros b Hb. apply in_map_iff in Hb.
  destruct Hb as (i & <- & Hi). apply in_seq in Hi.
  rewrite firstn_length, skipn_length. apply Nat.min_l. nia.
Qed.

Lemma padded_chunks_spec : forall A (z : A) (l : list A) (w : nat),
  1 <= w -> exists bs, padded_chunks_with z l w = Ret bs /\ cut_into z w l bs /\
    length bs = S (length l / w).
Proof.
  intros A z l w W. unfold padded_chunks_with.
  destruct (Nat.eqb_spec w 0) as [E|E]; [lia|].
  eexists. split; [reflexivity|].
  set (n := length l / w).
  assert (Q : n * w <= length l).
  { unfold n. rewrite Nat.mul_comm. apply Nat.mul_div_le. exact E. }
  assert (R : length (skipn (n * w) l) < w).
  { rewrite skipn_length. pose proof (Nat.div_mod (length l) w E) as D.
    pose proof (Nat.mod_upper_bound (length l) w E) as M. fold n in D. lia. }
  split; [split|].
  - apply Forall_app. split; [apply chunks_len; exact Q|].
    constructor; [|constructor]. rewrite app_length, repeat_length. lia.
  - exists (w - length (skipn (n * w) l)). split; [lia|].
    rewrite concat_app, concat_chunks by exact Q. cbn [concat]. rewrite app_nil_r, app_assoc, firstn_skipn.
    reflexivity.
  - rewrite app_length, map_length, seq_length. cbn. lia.
Qed.

Lemma concat_inj : forall A (w : nat) (bs bs' : list (list A)),
  1 <= w -> Forall (fun b => length b = w) bs -> Forall (fun b => length b = w) bs' ->
  concat bs = concat bs' -> bs = bs'.
Proof.
  intros A w bs. induction bs as [|b bs IH]; intros bs' W H H' E.
  - destruct bs' as [|b' bs']; [reflexivity|]. inversion H' as [|? ? L ?]. subst.
    destruct b'; [cbn in W; lia|discriminate].
  - inversion H as [|? ? L H2]. subst.
    destruct bs' as [|b' bs']; [destruct b; [cbn in W; lia|discriminate]|].
    inversion H' as [|? ? L' H2']. subst. cbn [concat] in E.
    assert (b = b' /\ concat bs = concat bs') as [-> E2].
    { clear - L' E. revert b' L' E. induction b as [|x b IH]; intros [|y b'] L E; try discriminate.
      - auto.
      - injection E as -> E. injection L as L. destruct (IH b' L E) as [-> Q]. auto. }
    f_equal. apply IH; auto.
Qed.

Section Duplex.
Variable F : Type.
Variable fzero : F.
Variables fadd fsub : F -> F -> F.
Variable feqb : F -> F -> bool.
Variable permute : list F -> list F.
Variable W : nat.
Hypothesis feqb_spec : forall x y, feqb x y = true <-> x = y.
Hypothesis sub_add : forall s m, fsub (fadd s m) s = m.
Hypothesis permute_len : forall st, length (permute st) = length st.

Notation add_block := (add_block F fadd).
Notation take_block := (take_block F fsub).
Notation absorb_all := (absorb_all F permute).
Notation feed := (feed F fadd permute).
Notation setup_blocks := (setup_blocks F fzero).
Notation dsetup := (dsetup F fzero fadd permute).

Definition zip_add (r b : list F) := map (fun xy => fadd (fst xy) (snd xy)) (combine r b).

Lemma add_block_spec : forall rate block, length block = length rate ->
  add_block rate block = Ret (zip_add rate block).
Proof.
  clear. induction rate as [|s rate IH]; intros [|x block] H; try discriminate; [reflexivity|].
  cbn. rewrite IH by (now injection H). reflexivity.
Qed.

Lemma zip_len : forall r b, length b = length r -> length (zip_add r b) = length r.
Proof. clear. intros r b H. unfold zip_add. rewrite map_length, combine_length, H. apply Nat.min_id. Qed.

Lemma take_block_spec : forall rate block, length block = length rate ->
  take_block rate block = Ret (block, map (fun xy => fsub (snd xy) (fst xy)) (combine rate block)).
Proof.
  clear. induction rate as [|s rate IH]; intros [|x block] H; try discriminate; [reflexivity|].
  cbn. rewrite IH by (now injection H). reflexivity.
Qed.

Lemma take_zip : forall rate block, length block = length rate ->
  take_block rate (zip_add rate block) = Ret (zip_add rate block, block).
Proof.
  clear - sub_add. induction rate as [|s rate IH]; intros [|x block] H; try discriminate; [reflexivity|].
  cbn. fold (zip_add rate block). rewrite IH by (now injection H). cbn. now rewrite sub_add.
Qed.

(** Absorbing the plaintext and absorbing the ciphertext go through the same states. *)
Lemma plain_cipher : forall pt st,
  length st = S W -> Forall (fun b => length b = W) pt ->
  exists st' ct, absorb_all (write_plain F fadd) pt st = Ret (st', ct) /\
    absorb_all (write_cipher F fsub) ct st = Ret (st', pt) /\
    length st' = S W /\ Forall (fun b => length b = W) ct /\ length ct = length pt.
Proof.
  clear feqb_spec.
  induction pt as [|b pt IH]; intros st L H.
  - exists st, []. cbn. auto.
  - inversion H as [|? ? Hb H']. subst.
    destruct st as [|k rate]; [discriminate|]. injection L as L.
    assert (Z : length (zip_add rate b) = length rate) by (apply zip_len; congruence).
    destruct (IH (permute (k :: zip_add rate b))) as (st' & ct & E1 & E2 & L' & H2 & N).
    + rewrite permute_len. cbn. congruence.
    + exact H'.
    + exists st', (zip_add rate b :: ct). cbn. unfold absorb. cbn.
      rewrite add_block_spec by congruence. cbn. rewrite E1. cbn.
      rewrite take_zip by congruence. cbn. rewrite E2. cbn.
      split; [reflexivity|]. split; [reflexivity|]. split; [exact L'|]. split; [|congruence].
      constructor; [congruence|exact H2].
Qed.

Lemma setup_feed : forall bs st, length st = S W -> Forall (fun b => length b = W) bs ->
  exists ins st' os, absorb_all (write_setup F fadd) bs st = Ret (st', os) /\
    feed st (map Add bs) ins st' /\ length st' = S W /\ length ins = length bs.
Proof.
  clear feqb_spec sub_add.
  induction bs as [|b bs IH]; intros st L H.
  - exists [], st, []. repeat split; auto. constructor.
  - inversion H as [|? ? Hb H']. subst.
    destruct st as [|k rate]; [discriminate|]. injection L as L.
    assert (Z : length (zip_add rate b) = length rate) by (apply zip_len; congruence).
    destruct (IH (permute (k :: zip_add rate b))) as (ins & st' & os & E & Fd & L' & N).
    + rewrite permute_len. cbn. congruence.
    + exact H'.
    + exists ((k :: zip_add rate b) :: ins), st', (tt :: os). cbn. unfold absorb. cbn.
      rewrite add_block_spec by congruence. cbn. rewrite E. cbn.
      split; [reflexivity|]. split; [constructor; exact Fd|]. split; [exact L'|congruence].
Qed.

Lemma cipher_feed : forall ct st, length st = S W -> Forall (fun b => length b = W) ct ->
  exists ins st' pt, absorb_all (write_cipher F fsub) ct st = Ret (st', pt) /\
    feed st (map Put ct) ins st' /\ length st' = S W /\ length ins = length ct.
Proof.
  clear feqb_spec sub_add.
  induction ct as [|b ct IH]; intros st L H.
  - exists [], st, []. repeat split; auto. constructor.
  - inversion H as [|? ? Hb H']. subst.
    destruct st as [|k rate]; [discriminate|]. injection L as L.
    destruct (IH (permute (k :: b))) as (ins & st' & os & E & Fd & L' & N).
    + rewrite permute_len. cbn. reflexivity.
    + exact H'.
    + eexists ((k :: b) :: ins), st', _. cbn. unfold absorb. cbn.
      rewrite take_block_spec by congruence. cbn. rewrite E. cbn.
      split; [reflexivity|]. split; [constructor; exact Fd|]. split; [exact L'|congruence].
Qed.

Lemma feed_app : forall i1 st ins1 st1, feed st i1 ins1 st1 -> forall i2 ins2 st2,
  feed st1 i2 ins2 st2 -> feed st (i1 ++ i2) (ins1 ++ ins2) st2.
Proof.
  clear. intros i1 st ins1 st1 H. induction H; intros i2 ins2 st2 H2; cbn; auto; constructor; auto.
Qed.

Lemma setup_blocks_ok : forall key header, 1 <= W ->
  exists kb hb, setup_blocks (S W) key header = Ret (kb ++ hb) /\
    cut_into fzero W key kb /\ cut_into fzero W header hb /\
    length kb = S (length key / W) /\ length hb = S (length header / W).
Proof.
  clear. intros key header H. unfold setup_blocks. cbn [Nat.sub]. rewrite Nat.sub_0_r.
  destruct (padded_chunks_spec F fzero key W H) as (kb & E1 & C1 & N1).
  destruct (padded_chunks_spec F fzero header W H) as (hb & E2 & C2 & N2).
  exists kb, hb. rewrite E1. cbn. rewrite E2. cbn. auto.
Qed.

Lemma dsetup_ok : forall init key header, 1 <= W -> length init = S W ->
  exists bs ins st, setup_blocks (S W) key header = Ret bs /\
    dsetup (S W) init key header = Ret st /\ feed init (map Add bs) ins st /\
    length st = S W /\ length ins = length bs /\ Forall (fun b => length b = W) bs.
Proof.
  intros init key header H L.
  destruct (setup_blocks_ok key header H) as (kb & hb & E & [C1 _] & [C2 _] & _).
  assert (Fb : Forall (fun b => length b = W) (kb ++ hb)) by (apply Forall_app; auto).
  destruct (setup_feed (kb ++ hb) init L Fb) as (ins & st & os & E2 & Fd & L' & N).
  exists (kb ++ hb), ins, st. unfold dsetup. rewrite E. cbn. rewrite E2. cbn.
  split; [reflexivity|]. split; [reflexivity|]. auto.
Qed.

Lemma read_tag_ok : forall (st : list F), 1 <= W -> length st = S W -> exists t, read_tag F st = Ret t /\ nth_error st 1 = Some t.
Proof.
  clear. intros st H L. unfold read_tag. destruct (nth_error st 1) as [t|] eqn:E; [exists t; auto|].
  apply nth_error_None in E. lia.
Qed.

(** Decryption as a run of the specification. *)
Lemma decrypt_feed : forall init key header c, 1 <= W -> length init = S W ->
  Forall (fun b => length b = W) (c_message c) ->
  exists bs ins st t pt, setup_blocks (S W) key header = Ret bs /\
    feed init (map Add bs ++ map Put (c_message c)) ins st /\
    nth_error st 1 = Some t /\ length ins = length bs + length (c_message c) /\
    Forall (fun b => length b = W) bs /\
    decrypt F fzero fadd fsub feqb permute (S W) init key header c = Ret (feqb (c_tag c) t, pt).
Proof.
  intros init key header c H L Hc.
  destruct (dsetup_ok init key header H L) as (bs & ins & st & E & E2 & Fd & L' & N & Fb).
  destruct (cipher_feed (c_message c) st L' Hc) as (ins2 & st2 & pt & E3 & Fd2 & L2 & N2).
  destruct (read_tag_ok st2 H L2) as (t & E4 & E5).
  exists bs, (ins ++ ins2), st2, t, pt.
  split; [exact E|]. split; [eapply feed_app; eauto|]. split; [exact E5|].
  split; [rewrite app_length; lia|]. split; [exact Fb|].
  unfold decrypt, duplex_decryption. rewrite E2. cbn. rewrite E3. cbn. rewrite E4. reflexivity.
Qed.

Lemma state_dec : forall a b : list F, {a = b} + {a <> b}.
Proof.
  clear - feqb_spec. apply list_eq_dec. intros x y. destruct (feqb x y) eqn:E.
  - left. now apply feqb_spec.
  - right. intros H. apply feqb_spec in H. congruence.
Qed.

Lemma zip_add_inj : forall r b b', length b = length r -> length b' = length r ->
  zip_add r b = zip_add r b' -> b = b'.
Proof.
  clear - sub_add. induction r as [|s r IH]; intros [|x b] [|y b'] L L' E; try discriminate; [reflexivity|].
  cbn in E. injection E as E1 E2. f_equal; [|apply IH; auto].
  rewrite <- (sub_add s x), <- (sub_add s y). congruence.
Qed.

(** The inputs of the permutation determine what was fed. *)
Lemma feed_inj : forall items st ins st1, feed st items ins st1 ->
  forall items' st2, feed st items' ins st2 -> length st = S W ->
  map kind items = map kind items' ->
  Forall (fun i => length (body i) = W) items -> Forall (fun i => length (body i) = W) items' ->
  items = items'.
Proof.
  clear - sub_add permute_len.
  intros items st ins st1 H. induction H; intros items' st2 H2 L K B B'.
  - inversion H2; subst; auto.
  - inversion H2; subst; cbn in K; try discriminate.
    injection K as K. inversion B; inversion B'; subst. cbn in *.
    assert (b = b0).
    { eapply zip_add_inj with (r := rate).
      - lia.
      - lia.
      - unfold zip_add. congruence. }
    subst b0. f_equal. eapply IHfeed; eauto.
    rewrite permute_len. cbn. rewrite map_length, combine_length. lia.
  - inversion H2; subst; cbn in K; try discriminate.
    injection K as K. inversion B; inversion B'; subst. cbn in *.
    f_equal. eapply IHfeed; eauto. rewrite permute_len. cbn. lia.
Qed.

Lemma feed_hd : forall st items a ins st', feed st items (a :: ins) st' -> nth_error a 0 = nth_error st 0.
Proof. clear. intros st items a ins st' H. inversion H; reflexivity. Qed.

Lemma feed_len : forall st items ins st', feed st items ins st' -> length ins = length items.
Proof. clear. intros st items ins st' H. induction H; cbn; congruence. Qed.

Lemma feed_cons : forall st items a ins st', feed st items (a :: ins) st' ->
  exists items', feed (permute a) items' ins st'.
Proof. clear. intros st items a ins st' H. inversion H; subst; eauto. Qed.

Lemma feed_collide : forall ins1 st1 items1 out1, feed st1 items1 ins1 out1 ->
  forall ins2 st2 items2 out2, feed st2 items2 ins2 out2 -> length ins1 = length ins2 ->
  nth_error out1 1 = nth_error out2 1 -> ins1 <> ins2 -> collide F permute ins1 ins2.
Proof.
  clear - feqb_spec.
  induction ins1 as [|a ins1 IH]; intros st1 items1 out1 H1 [|b ins2] st2 items2 out2 H2 L T D; try discriminate.
  - congruence.
  - injection L as L.
    destruct (feed_cons _ _ _ _ _ H1) as (i1 & F1).
    destruct (feed_cons _ _ _ _ _ H2) as (i2 & F2).
    destruct (list_eq_dec state_dec ins1 ins2) as [E|E].
    + subst ins2. exists 0, a, b. split; [reflexivity|]. split; [reflexivity|].
      split; [congruence|].
      destruct ins1 as [|c ins1].
      * right. split; [reflexivity|]. inversion F1; subst. inversion F2; subst. exact T.
      * left. apply feed_hd in F1, F2. congruence.
    + destruct (IH _ _ _ F1 _ _ _ _ F2 L T E) as (i & x & y & A & B & Q & R).
      exists (S i), x, y. split; [exact A|]. split; [exact B|]. split; [exact Q|].
      destruct R as [R|[R1 R2]]; [left; exact R|right]. split; [cbn; congruence|exact R2].
Qed.
End Duplex.
