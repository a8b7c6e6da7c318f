(** C37, C36 on files and C52: the encrypted file store. *)
From Coq Require Import List NArith Lia Bool Arith Permutation.
From Verif Require Import CoModel CoSpec CoLemmas CoProps CoInst FsModel FsSpec FsLemmas FsTotal.
Import ListNotations.
Open Scope nat_scope.

Lemma parts_fuel_concat : forall n cs, 0 < n -> Forall (fun c : bytes => length c = n) cs ->
  forall fuel, length cs <= fuel -> parts_fuel fuel n (concat cs) = cs.
Proof.
  intros n cs P F. induction F as [|c cs L F IH]; intros fuel H; [destruct fuel; reflexivity|].
  destruct fuel as [|fuel]; [cbn in H; lia|]. cbn [concat length] in *.
  destruct c as [|c0 c']; [cbn in L; lia|].
  cbn [parts_fuel app]. change (c0 :: c' ++ concat cs) with ((c0 :: c') ++ concat cs).
  rewrite firstn_exact, skipn_exact by (symmetry; exact L). rewrite IH by lia. reflexivity.
Qed.
Lemma parts_concat : forall n cs, 0 < n -> Forall (fun c : bytes => length c = n) cs -> parts n (concat cs) = cs.
Proof.
  intros n cs P F. apply parts_fuel_concat; [exact P|exact F|].
  clear - P F. induction F as [|c cs L F IH]; [reflexivity|]. cbn [concat length]. rewrite app_length. lia.
Qed.

(** A byte array, such as a key or a hash, as a value and its type. *)
Definition array (bs : bytes) : val := VTuple (map (VInt 1) bs).
Definition array_ty (n : nat) : ty := TTuple (repeat (TInt 1) n).

Section Fs.
  Variable kdf : bytes -> bytes -> N -> bytes.
  Variable seal : cipher -> bytes -> bytes -> bytes -> bytes -> option (bytes * bytes).
  Variable open : cipher -> bytes -> bytes -> bytes -> bytes -> bytes -> option bytes.
  Variable Rng : Type.
  Variable from_seed : bytes -> Rng.
  Variable fill : Rng -> nat -> bytes * Rng.
  Variable mem : N.
  Variable utf8 : bytes -> bool.

  (** The cipher seals every block of the fixed size. *)
  Definition seals_blocks : Prop := forall c k n a d, length d = block_size -> seal c k n a d <> None.
  (** One stored block takes this many bytes. *)
  Definition stride : nat := 36 + block_size.

  Lemma file_cocoon_eq : forall pw, exists m, file_cocoon kdf Rng from_seed pw = Ok m.
  Proof. intros pw. unfold file_cocoon, mini_from_password. rewrite repeat_length. eexists. reflexivity. Qed.
  Lemma file_cocoon_cipher : forall pw m, file_cocoon kdf Rng from_seed pw = Ok m ->
    c_cipher (mk_config m) = Chacha20Poly1305.
  Proof.
    intros pw m E. unfold file_cocoon, mini_from_password in E. rewrite repeat_length in E.
    change (32 =? 32) with true in E. cbv iota in E. injection E as <-. reflexivity.
  Qed.
  (** The key of a password: PBKDF2 with 32 zero bytes for a salt and 100000 iterations. *)
  Definition password_key (pw : bytes) : bytes := kdf (repeat 0%N 32) pw 100000.
  Lemma file_cocoon_key : forall pw m, file_cocoon kdf Rng from_seed pw = Ok m -> mk_key m = password_key pw.
  Proof.
    intros pw m E. unfold file_cocoon, mini_from_password in E. rewrite repeat_length in E.
    change (32 =? 32) with true in E. cbv iota in E. injection E as <-. reflexivity.
  Qed.
  Lemma dump_ok : seals_blocks -> forall (m : mini Rng) b, length b = block_size ->
    exists c, mini_dump seal Rng fill m b = Ok c.
  Proof.
    intros SB m b L. unfold mini_dump, mini_encrypt. destruct (fill (mk_rng m) 12) as [nonce r].
    match goal with |- context [seal ?c ?k ?n ?a ?d] => pose proof (SB c k n a d L) as X; destruct (seal c k n a d) as [[ct tag]|] end;
      [|congruence]. cbn [obind]. eauto.
  Qed.

  (** What [save] leaves on disk: containers of full blocks that spell out the value. *)
  Lemma save_inv : forall pw t v f m, has_type utf8 t v -> file_cocoon kdf Rng from_seed pw = Ok m ->
    save kdf seal Rng from_seed fill pw v = Ok f ->
    exists bl cs, dumped seal Rng fill m bl cs /\ f = concat cs /\
      if ends_in_unit v then cs = [] else exists pad, pad < block_size /\ enc v ++ repeat 0%N pad = concat bl.
  Proof.
    intros pw t v f m HT Em H. unfold save in H. rewrite Em in H. cbn [obind] in H.
    destruct (serialize seal Rng fill m v _) as [s|e|] eqn:E; cbn [obind] in H; try discriminate.
    injection H as <-.
    pose proof (typed_shaped utf8 _ v t (le_n _) HT) as SH.
    pose proof (serialize_out seal Rng fill m _ v (le_n _) SH {| s_file := []; s_block := []; s_depth := 0 |} s eq_refl E) as O.
    destruct (ends_in_unit v).
    - destruct O as [_ O]. cbn [s_file] in O. exists [], []. split; [constructor|]. split; [exact O|reflexivity].
    - destruct O as (_ & _ & bl & cs & pad & X & F & P & G). cbn [s_file s_block app] in *.
      exists bl, cs. split; [exact X|]. split; [exact F|]. eauto.
  Qed.

  (** ** C37: what is saved can be loaded *)

  (** Every value of every type, however many blocks it fills, is saved without error and loaded back
      as it was; bytes that follow it in the file make no difference. The exception, values made of a
      unit below an option or a newtype variant, is [c37_lost]. *)
  Theorem c37_round_trip_partial : aead_ok seal open -> fill_ok fill -> seals_blocks -> holds mem block_size ->
    forall pw t v, has_type utf8 t v -> dangling v = false ->
    exists f, save kdf seal Rng from_seed fill pw v = Ok f /\
      forall more, load kdf open Rng from_seed mem utf8 pw t (f ++ more) = DOk v.
  Proof.
    intros SEAL FILL SB HO pw t v HT D.
    destruct (file_cocoon_eq pw) as [m Em].
    pose proof (typed_shaped utf8 _ v t (le_n _) HT) as SH.
    destruct (serialize_total seal Rng fill m (dump_ok SB m) _ v (le_n _) SH {| s_file := []; s_block := []; s_depth := 0 |}) as [s E].
    assert (SV : save kdf seal Rng from_seed fill pw v = Ok (s_file s)).
    { unfold save. rewrite Em. cbn [obind]. rewrite E. reflexivity. }
    exists (s_file s). split; [exact SV|]. intros more.
    destruct (save_inv pw t v _ m HT Em SV) as (bl & cs & X & F & G).
    unfold load. rewrite Em. cbn [map_io dbind].
    assert (R : exists rest, ready seal Rng fill m {| d_file := s_file s ++ more; d_block := [] |} (enc v ++ rest)).
    { destruct (ends_in_unit v) eqn:EU.
      - rewrite (settled_enc _ v (le_n _) EU D). exists []. subst cs. rewrite F.
        exists [], [], more. split; [constructor|]. split; reflexivity.
      - destruct G as (pad & _ & G). exists (repeat 0%N pad). rewrite G, F.
        exists bl, cs, more. split; [exact X|]. split; reflexivity. }
    destruct R as [rest R].
    destruct (deserialize_ready seal open Rng fill mem utf8 m SEAL FILL HO _ v (le_n _) t _ rest HT R) as (s' & E' & _).
    rewrite E'. reflexivity.
  Qed.

  (** The exception: nothing at all is written, no error is reported, and loading fails. *)
  Theorem c37_lost : forall pw t v, has_type utf8 t v -> dangling v = true ->
    save kdf seal Rng from_seed fill pw v = Ok [] /\
    load kdf open Rng from_seed mem utf8 pw t [] = DErr (Io TooShort).
  Proof.
    intros pw t v HT D. destruct (file_cocoon_eq pw) as [m Em]. split.
    - assert (EU : forall x s, ends_in_unit x = true -> s_depth s = 0 ->
                exists s', serialize seal Rng fill m x s = Ok s' /\ s_file s' = s_file s).
      { clear. assert (G : forall n x s, vsize x <= n -> ends_in_unit x = true -> exists s', serialize seal Rng fill m x s = Ok s' /\ s_file s' = s_file s).
        { induction n as [|n IH]; intros x s SZ E; [pose proof (vsize_pos x); lia|].
          destruct x; cbn [ends_in_unit vsize serialize] in *; try discriminate.
          - destruct (IH x (extend s [1%N]) ltac:(lia) E) as (s' & A & B). exists s'. split; [exact A|exact B].
          - exists s. split; reflexivity.
          - apply IH; [lia|exact E].
          - destruct x; try discriminate. cbn [vsize] in SZ.
            destruct (IH x (extend s (variant_tag i)) ltac:(lia) E) as (s' & A & B). exists s'. split; [exact A|exact B]. }
        intros x s E _. exact (G _ x s (le_n _) E). }
      assert (EV : ends_in_unit v = true).
      { clear - D. assert (G : forall n v, vsize v <= n -> dangling v = true -> ends_in_unit v = true).
        { induction n as [|n IH]; intros x SZ E; [pose proof (vsize_pos x); lia|].
          destruct x; cbn [ends_in_unit dangling vsize] in *; try discriminate; try exact E.
          apply IH; [lia|exact E]. }
        exact (G _ v (le_n _) D). }
      destruct (EU v {| s_file := []; s_block := []; s_depth := 0 |} EV eq_refl) as (s' & A & B).
      unfold save. rewrite Em. cbn [obind]. rewrite A. cbn [obind]. rewrite B. reflexivity.
    - unfold load. rewrite Em. cbn [map_io dbind].
      assert (G : forall n v t, vsize v <= n -> has_type utf8 t v -> dangling v = true ->
        deserialize open Rng mem utf8 m t {| d_file := []; d_block := [] |} = DErr (Io TooShort)).
      { clear. induction n as [|n IH]; intros v t SZ HT D; [pose proof (vsize_pos v); lia|].
        destruct HT; cbn [dangling vsize deserialize] in *; try discriminate; try reflexivity.
        rewrite (IH v t ltac:(lia) HT D). reflexivity. }
      rewrite (G _ v t (le_n _) HT D). reflexivity.
  Qed.

  (** ** C36 on files: one nonce for every block of every file *)

  Lemma save_parts : aead_ok seal open -> fill_ok fill -> holds mem block_size ->
    forall pw t v f m, has_type utf8 t v -> file_cocoon kdf Rng from_seed pw = Ok m ->
    save kdf seal Rng from_seed fill pw v = Ok f ->
    forall c, In c (parts stride f) -> exists b, length b = block_size /\ mini_wrap seal Rng fill m b = Ok c /\
      mini_parse open Rng mem m c = Ok (b, []).
  Proof.
    intros SEAL FILL HO pw t v f m HT Em SV c Hc.
    destruct (save_inv pw t v f m HT Em SV) as (bl & cs & X & -> & _).
    assert (Q : Forall (fun c => exists b, length b = block_size /\ mini_wrap seal Rng fill m b = Ok c /\
              mini_parse open Rng mem m c = Ok (b, []) /\ length c = stride) cs).
    { clear - X SEAL FILL HO. induction X as [|b c bl cs [L D] X IH]; constructor; [|exact IH].
      exists b. assert (HB := HO). rewrite <- L in HB.
      destruct (c35_mini_dump_parse seal open Rng fill mem SEAL FILL m m b c [] eq_refl eq_refl HB D) as [LC P].
      rewrite app_nil_r in P. split; [exact L|]. split; [exact D|]. split; [exact P|]. rewrite LC, L. reflexivity. }
    rewrite parts_concat in Hc.
    - rewrite Forall_forall in Q. destruct (Q c Hc) as (b & A & B & C & _). eauto.
    - unfold stride. lia.
    - eapply Forall_impl; [|exact Q]. intros x (b & _ & _ & _ & Lx). exact Lx.
  Qed.

  (** Any two blocks of any two files saved with one password, the same file twice included, are sealed
      under one key and one nonce, and the stored bytes give away the sum of the two plaintexts. *)
  Theorem c36_file_reuse : aead_ok seal open -> fill_ok fill -> holds mem block_size ->
    forall pw t1 t2 v1 v2 f1 f2, has_type utf8 t1 v1 -> has_type utf8 t2 v2 ->
    save kdf seal Rng from_seed fill pw v1 = Ok f1 -> save kdf seal Rng from_seed fill pw v2 = Ok f2 ->
    forall c1 c2, In c1 (parts stride f1) -> In c2 (parts stride f2) ->
    exists b1 b2, length b1 = block_size /\ length b2 = block_size /\ firstn 12 c1 = firstn 12 c2 /\
      seal Chacha20Poly1305 (password_key pw) (firstn 12 c1) (firstn 20 c1) b1 = Some (skipn 36 c1, slice c1 20 36) /\
      seal Chacha20Poly1305 (password_key pw) (firstn 12 c1) (firstn 20 c2) b2 = Some (skipn 36 c2, slice c2 20 36).
  Proof.
    intros SEAL FILL HO pw t1 t2 v1 v2 f1 f2 T1 T2 S1 S2 c1 c2 I1 I2.
    destruct (file_cocoon_eq pw) as [m Em].
    destruct (save_parts SEAL FILL HO pw t1 v1 f1 m T1 Em S1 c1 I1) as (b1 & L1 & W1 & _).
    destruct (save_parts SEAL FILL HO pw t2 v2 f2 m T2 Em S2 c2 I2) as (b2 & L2 & W2 & _).
    destruct (holds_64 mem _ HO) as [H64 _].
    destruct (c36_mini_reuse seal open Rng fill SEAL FILL m b1 b2 c1 c2) as (A & B & C); try assumption;
      [rewrite L1; exact H64|rewrite L2; exact H64|].
    exists b1, b2. split; [exact L1|]. split; [exact L2|]. split; [exact A|].
    pose proof (file_cocoon_cipher pw m Em) as CI.
    rewrite CI, (file_cocoon_key pw m Em) in B, C. split; [exact B|exact C].
  Qed.
  Theorem c36_file_leak : aead_ok seal open -> fill_ok fill -> holds mem block_size ->
    forall stream, is_stream seal stream ->
    forall pw t1 t2 v1 v2 f1 f2 m, has_type utf8 t1 v1 -> has_type utf8 t2 v2 ->
    save kdf seal Rng from_seed fill pw v1 = Ok f1 -> save kdf seal Rng from_seed fill pw v2 = Ok f2 ->
    file_cocoon kdf Rng from_seed pw = Ok m ->
    forall c1 c2, In c1 (parts stride f1) -> In c2 (parts stride f2) ->
    exists b1 b2, mini_parse open Rng mem m c1 = Ok (b1, []) /\ mini_parse open Rng mem m c2 = Ok (b2, []) /\
      length b1 = block_size /\ length b2 = block_size /\
      forall i x1 x2, nth_error b1 i = Some x1 -> nth_error b2 i = Some x2 ->
      exists y1 y2, nth_error c1 (36 + i) = Some y1 /\ nth_error c2 (36 + i) = Some y2 /\
        N.lxor y1 y2 = N.lxor x1 x2.
  Proof.
    intros SEAL FILL HO stream ST pw t1 t2 v1 v2 f1 f2 m T1 T2 S1 S2 Em c1 c2 I1 I2.
    destruct (save_parts SEAL FILL HO pw t1 v1 f1 m T1 Em S1 c1 I1) as (b1 & L1 & W1 & P1).
    destruct (save_parts SEAL FILL HO pw t2 v2 f2 m T2 Em S2 c2 I2) as (b2 & L2 & W2 & P2).
    destruct (holds_64 mem _ HO) as [H64 _].
    exists b1, b2. split; [exact P1|]. split; [exact P2|]. split; [exact L1|]. split; [exact L2|].
    apply (c36_mini_leak seal open Rng fill SEAL FILL stream ST m b1 b2 c1 c2); try assumption;
      [rewrite L1; exact H64|rewrite L2; exact H64].
  Qed.

  (** ** C52: a file changed without the password is not loaded as something else *)

  (** What a successful load does rest on: a run of containers at the front of the file, every one of
      them sealed under the key of the password, and nothing behind them. *)
  Theorem c52_authentic_partial : aead_tight seal open ->
    forall pw t f v, load kdf open Rng from_seed mem utf8 pw t f = DOk v ->
    exists cs rest, f = concat cs ++ rest /\
      Forall (fun c => 36 <= length c /\ exists d,
        seal Chacha20Poly1305 (password_key pw) (firstn 12 c) (firstn 20 c) d = Some (skipn 36 c, slice c 20 36)) cs /\
      forall more, load kdf open Rng from_seed mem utf8 pw t (concat cs ++ more) = DOk v.
  Proof.
    intros TI pw t f v H. destruct (file_cocoon_eq pw) as [m Em].
    unfold load in H. rewrite Em in H. cbn [map_io dbind] in H.
    destruct (deserialize open Rng mem utf8 m t {| d_file := f; d_block := [] |}) as [[v' s']|e|] eqn:E; cbn [dbind] in H; try discriminate.
    injection H as ->.
    destruct (deserialize_local open Rng mem utf8 m _ t (le_n _) _ _ _ E) as (cs & O & F & G).
    cbn [d_file d_block] in *. exists cs, (d_file s'). split; [exact F|]. split.
    - eapply Forall_impl; [|exact O]. intros c (d & L & OP). split; [exact L|]. exists d.
      pose proof (file_cocoon_cipher pw m Em) as CI.
      rewrite CI, (file_cocoon_key pw m Em) in OP. apply TI. exact OP.
    - intros more. unfold load. rewrite Em. cbn [map_io dbind]. rewrite G. reflexivity.
  Qed.

  Lemma array_typed : forall bs, wfb bs -> has_type utf8 (array_ty (length bs)) (array bs).
  Proof.
    intros bs W. apply H_tuple. induction W as [|b bs B W IH]; [constructor|].
    cbn [length repeat map]. constructor; [|exact IH]. constructor. exact B.
  Qed.
  Lemma array_enc : forall bs, wfb bs -> enc (array bs) = bs.
  Proof.
    intros bs W. unfold array. cbn [enc]. rewrite map_map. induction W as [|b bs B W IH]; [reflexivity|].
    cbn [map concat]. rewrite IH. cbn [enc le]. rewrite N.mod_small by exact B. reflexivity.
  Qed.

  (** What it does not rest on is their order: the two blocks of an array of twice the block size can be
      exchanged in the file, and the array loads with its halves exchanged. *)
  Theorem c52_swap : aead_ok seal open -> fill_ok fill -> seals_blocks -> holds mem block_size ->
    forall pw b1 b2, length b1 = block_size -> length b2 = block_size -> wfb b1 -> wfb b2 ->
    exists c1 c2, length c1 = stride /\ length c2 = stride /\
      save kdf seal Rng from_seed fill pw (array (b1 ++ b2)) = Ok (c1 ++ c2) /\
      load kdf open Rng from_seed mem utf8 pw (array_ty (block_size + block_size)) (c1 ++ c2) = DOk (array (b1 ++ b2)) /\
      load kdf open Rng from_seed mem utf8 pw (array_ty (block_size + block_size)) (c2 ++ c1) = DOk (array (b2 ++ b1)).
  Proof.
    intros SEAL FILL SB HO pw b1 b2 L1 L2 W1 W2.
    destruct (file_cocoon_eq pw) as [m Em].
    assert (W : wfb (b1 ++ b2)) by (apply Forall_app; split; assumption).
    assert (W' : wfb (b2 ++ b1)) by (apply Forall_app; split; assumption).
    pose proof (array_typed _ W) as T. pose proof (array_typed _ W') as T'.
    rewrite app_length, L1, L2 in T, T'.
    destruct (c37_round_trip_partial SEAL FILL SB HO pw _ _ T eq_refl) as (f & SV & LD).
    destruct (save_inv pw _ _ f m T Em SV) as (bl & cs & X & F & G).
    cbn [ends_in_unit array] in G. destruct G as (pad & LP & G).
    change (VTuple (map (VInt 1) (b1 ++ b2))) with (array (b1 ++ b2)) in G. rewrite (array_enc _ W) in G.
    pose proof (f_equal (@length N) G) as LG.
    rewrite !app_length, repeat_length, L1, L2, (dumped_blocks_len seal Rng fill m bl cs X) in LG.
    pose proof block_size_pos as BP.
    destruct X as [|x1 c1 bl cs [XL1 XD1] X]; [cbn [length Nat.mul] in LG; lia|].
    destruct X as [|x2 c2 bl cs [XL2 XD2] X]; [cbn [length Nat.mul] in LG; lia|].
    destruct X as [|x3 c3 bl cs _ X]; [|cbn [length Nat.mul] in LG; lia].
    cbn [length Nat.mul] in LG. assert (pad = 0) by lia. subst pad. cbn [repeat concat] in G, F.
    rewrite !app_nil_r in G. rewrite app_nil_r in F. subst f.
    assert (x1 = b1 /\ x2 = b2) as [-> ->].
    { pose proof (f_equal (firstn block_size) G) as G1. rewrite !firstn_exact in G1 by congruence.
      pose proof (f_equal (skipn block_size) G) as G2. rewrite !skipn_exact in G2 by congruence. split; congruence. }
    assert (LEN : forall b c, length b = block_size -> mini_dump seal Rng fill m b = Ok c -> length c = stride).
    { intros b c Lb D. assert (HB := HO). rewrite <- Lb in HB.
      destruct (c35_mini_dump_parse seal open Rng fill mem SEAL FILL m m b c [] eq_refl eq_refl HB D) as [LC _].
      rewrite LC, Lb. reflexivity. }
    exists c1, c2. split; [exact (LEN _ _ L1 XD1)|]. split; [exact (LEN _ _ L2 XD2)|]. split; [exact SV|].
    split; [rewrite <- (app_nil_r (c1 ++ c2)); apply LD|].
    unfold load. rewrite Em. cbn [map_io dbind].
    assert (R : ready seal Rng fill m {| d_file := c2 ++ c1; d_block := [] |} (enc (array (b2 ++ b1)) ++ [])).
    { rewrite (array_enc _ W'), app_nil_r. exists [b2; b1], [c2; c1], [].
      split; [constructor; [split; assumption|]; constructor; [split; assumption|constructor]|].
      cbn [concat d_file d_block app]. rewrite !app_nil_r. split; reflexivity. }
    destruct (deserialize_ready seal open Rng fill mem utf8 m SEAL FILL HO _ _ (le_n _) _ _ [] T' R) as (s' & E' & _).
    rewrite E'. reflexivity.
  Qed.
End Fs.

(** * Witnesses and examples *)
Definition ex_utf8 (bs : bytes) : bool := forallb (fun b => (b <? 128)%N) bs.
Definition ex_save := save t_kdf t_seal N t_from_seed t_fill.
Definition ex_load := load t_kdf t_open N t_from_seed ex_mem ex_utf8.

Example ex_hypotheses : aead_ok t_seal t_open /\ aead_tight t_seal t_open /\ fill_ok t_fill /\
  is_stream t_seal t_stream /\ seals_blocks t_seal /\ holds ex_mem block_size.
Proof.
  split; [exact t_aead|]. split; [exact t_tight|]. split; [exact t_fill_ok|]. split; [exact t_is_stream|].
  split; [intros c k n a d _; discriminate|]. split; vm_compute; discriminate.
Qed.

(** A struct with a string, a map, an option and an enum goes to disk and comes back; a wrong password
    and a flipped bit are noticed. *)
Definition ex_ty : ty :=
  TTuple [TStr; TMap (TInt 4) (TOption TUnit); TEnum [TUnit; TNew TBool; TTuple [TChar; TBytes]]; TInt 16].
Definition ex_val : val :=
  VTuple [VStr [77; 97; 110; 116; 97]%N; VMap [(VInt 4 70000%N, VSome VUnit); (VInt 4 3%N, VNone)];
          VEnum 2 (VTuple [VChar 8364%N; VBytes [255; 0]%N]); VInt 16 (2 ^ 100)%N].
Example c37_run :
  has_type ex_utf8 ex_ty ex_val /\ dangling ex_val = false /\
  exists f, ex_save ex_password ex_val = Ok f /\ length f = N.to_nat 8228 /\
    ex_load ex_password ex_ty f = DOk ex_val /\
    ex_load [0%N] ex_ty f = DErr (Io Cryptography) /\
    ex_load ex_password ex_ty (firstn 100 f ++ [N.lxor 1 (nth 100 f 0%N)] ++ skipn 101 f) = DErr (Io Cryptography).
Proof.
  split.
  { apply H_tuple. constructor; [constructor; reflexivity|].
    constructor; [constructor; [reflexivity|repeat constructor]|].
    constructor; [apply H_enum_tuple with (us := [TChar; TBytes]); [reflexivity|reflexivity|]|].
    - constructor; [constructor; left; reflexivity|]. constructor; [constructor; reflexivity|constructor].
    - constructor; [constructor; reflexivity|constructor]. }
  split; [reflexivity|].
  exists (match ex_save ex_password ex_val with Ok g => g | _ => [] end).
  split; [vm_compute; reflexivity|]. split; [vm_compute; reflexivity|]. split; [vm_compute; reflexivity|].
  split; vm_compute; reflexivity.
Qed.

(** C37 does not hold for [Some(())]: saving reports success, and there is nothing to load. *)
Theorem c37_refuted : exists pw t v f, has_type ex_utf8 t v /\ ex_save pw v = Ok f /\
  ex_load pw t f = DErr (Io TooShort).
Proof.
  exists ex_password, (TOption TUnit), (VSome VUnit), [].
  split; [repeat constructor|]. split; vm_compute; reflexivity.
Qed.

(** C36 does not hold for files: two different values, one nonce. *)
Theorem c36_file_refuted : exists pw v1 v2 f1 f2, ex_save pw v1 = Ok f1 /\ ex_save pw v2 = Ok f2 /\
  f1 <> f2 /\ firstn 12 f1 = firstn 12 f2 /\ length f1 = stride.
Proof.
  exists ex_password, (VBool true), (VBool false),
    (match ex_save ex_password (VBool true) with Ok f => f | _ => [] end),
    (match ex_save ex_password (VBool false) with Ok f => f | _ => [] end).
  split; [vm_compute; reflexivity|]. split; [vm_compute; reflexivity|].
  split; [|split; vm_compute; reflexivity].
  assert (D : forall f g : bytes, N.eqb (nth 36 f 0%N) (nth 36 g 0%N) = false -> f <> g).
  { intros f g E ->. rewrite N.eqb_refl in E. discriminate. }
  apply D. vm_compute. reflexivity.
Qed.
Example c36_file_run : exists f, ex_save ex_password (VBool true) = Ok f /\ exists c, parts stride f = [c].
Proof.
  exists (match ex_save ex_password (VBool true) with Ok f => f | _ => [] end).
  split; [vm_compute; reflexivity|]. eexists. vm_compute. reflexivity.
Qed.

(** C52 does not hold: the stored blocks put in another order, no password needed, load as another
    value of the same type. *)
Theorem c52_refuted : exists pw t v v' f f', has_type ex_utf8 t v /\ ex_save pw v = Ok f /\
  Permutation (parts stride f) (parts stride f') /\ ex_load pw t f = DOk v /\
  ex_load pw t f' = DOk v' /\ v' <> v.
Proof.
  destruct ex_hypotheses as (SEAL & _ & FILL & _ & SB & HO).
  pose (b1 := repeat 0%N block_size). pose (b2 := repeat 1%N block_size).
  assert (L1 : length b1 = block_size) by apply repeat_length.
  assert (L2 : length b2 = block_size) by apply repeat_length.
  assert (W : forall x, (x < 256)%N -> wfb (repeat x block_size)).
  { intros x Hx. unfold wfb. apply Forall_forall. intros y Hy. apply repeat_spec in Hy. subst y. exact Hx. }
  assert (W1 : wfb b1) by (apply W; reflexivity). assert (W2 : wfb b2) by (apply W; reflexivity).
  destruct (c52_swap t_kdf t_seal t_open N t_from_seed t_fill ex_mem ex_utf8 SEAL FILL SB HO ex_password b1 b2 L1 L2 W1 W2)
    as (c1 & c2 & LC1 & LC2 & SV & LD & LS).
  exists ex_password, (array_ty (block_size + block_size)), (array (b1 ++ b2)), (array (b2 ++ b1)), (c1 ++ c2), (c2 ++ c1).
  split.
  { rewrite <- L1 at 1. rewrite <- L2. rewrite <- app_length. apply array_typed. apply Forall_app. split; assumption. }
  split; [exact SV|]. split.
  { assert (P : forall a b, length a = stride -> length b = stride -> parts stride (a ++ b) = [a; b]).
    { intros a b La Lb. transitivity (parts stride (concat [a; b])).
      { cbn [concat]. rewrite app_nil_r. reflexivity. }
      apply parts_concat; [unfold stride; lia|]. repeat constructor; assumption. }
    rewrite (P _ _ LC1 LC2), (P _ _ LC2 LC1). apply perm_swap. }
  split; [exact LD|]. split; [exact LS|].
  intros E. assert (E1 : b2 ++ b1 = b1 ++ b2).
  { assert (INJ : forall a b, map (VInt 1) a = map (VInt 1) b -> a = b).
    { clear. induction a as [|x a IH]; intros [|y b] H; try discriminate; [reflexivity|].
      cbn [map] in H. injection H as H1 H2. rewrite H1, (IH _ H2). reflexivity. }
    apply INJ. unfold array in E. congruence. }
  pose proof (f_equal (firstn block_size) E1) as E2. rewrite !firstn_exact in E2 by congruence.
  unfold b1, b2 in E2. pose proof block_size_pos as BP. destruct block_size; [lia|]. discriminate.
Qed.

Print Assumptions c37_round_trip_partial. Print Assumptions c37_lost. Print Assumptions c37_refuted.
Print Assumptions c36_file_reuse. Print Assumptions c36_file_leak. Print Assumptions c36_file_refuted.
Print Assumptions c52_authentic_partial. Print Assumptions c52_swap. Print Assumptions c52_refuted.
