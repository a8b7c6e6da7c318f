(** More lemmas about the encrypted file model: saving never fails, and loading looks at no more of the
    file than the containers it takes. *)
From Coq Require Import List NArith Lia Bool Arith.
From Verif Require Import CoModel CoSpec CoLemmas CoProps FsModel FsSpec FsLemmas.
Import ListNotations.
Open Scope nat_scope.

Section Total.
  Variable seal : cipher -> bytes -> bytes -> bytes -> bytes -> option (bytes * bytes).
  Variable Rng : Type.
  Variable fill : Rng -> nat -> bytes * Rng.
  Variable m : mini Rng.
  Hypothesis DUMP : forall b, length b = block_size -> exists c, mini_dump seal Rng fill m b = Ok c.

  Lemma flush_intermediate_total : forall fuel s, length (s_block s) <= fuel ->
    exists s', flush_intermediate seal Rng fill m fuel s = Ok s'.
  Proof.
    pose proof block_size_pos as BP.
    induction fuel as [|f IH]; intros s L; cbn [flush_intermediate]; unfold block_parse_full, block_parse;
      destruct (Nat.leb_spec block_size (length (s_block s))) as [Y|Y]; eauto; [lia|].
    rewrite Nat.min_r by exact Y. unfold file_write.
    destruct (DUMP (resize block_size (firstn block_size (s_block s)))) as [c E].
    { apply resize_len. rewrite firstn_length. lia. }
    rewrite E. cbn [obind]. apply IH. cbn [s_block]. rewrite skipn_length. lia.
  Qed.
  Lemma flush_end_total : forall fuel s, length (s_block s) <= fuel ->
    exists s', flush_end seal Rng fill m fuel s = Ok s'.
  Proof.
    pose proof block_size_pos as BP.
    induction fuel as [|f IH]; intros s L; cbn [flush_end];
      destruct (s_block s) as [|b0 r0] eqn:B; eauto; [cbn in L; lia|].
    unfold block_parse, file_write.
    destruct (DUMP (resize block_size (firstn (Nat.min (length (b0 :: r0)) block_size) (b0 :: r0)))) as [c E].
    { apply resize_len. rewrite firstn_length. lia. }
    rewrite E. cbn [obind]. apply IH. cbn [s_block]. rewrite skipn_length. cbn [length] in *. lia.
  Qed.
  Lemma flush_total : forall s, exists s', flush seal Rng fill m s = Ok s'.
  Proof.
    intros s. unfold flush. destruct (s_depth s); [apply flush_end_total|apply flush_intermediate_total]; lia.
  Qed.
  Lemma each_total : forall {A} (f : A -> ser -> out ser) (g : A -> bytes) l,
    (forall x, In x l -> forall s, exists s', f x s = Ok s') ->
    (forall x, In x l -> forall d s s', s_depth s = S d -> f x s = Ok s' -> wrote seal Rng fill m s s' (g x)) ->
    forall d s, s_depth s = S d -> exists s', each f l s = Ok s' /\ s_depth s' = S d.
  Proof.
    clear. intros A f g. induction l as [|x l IH]; intros T W d s D; cbn [each]; [eauto|].
    destruct (T x (or_introl eq_refl) s) as [s1 E]. rewrite E. cbn [obind].
    apply (IH (fun y Hy => T y (or_intror Hy)) (fun y Hy => W y (or_intror Hy)) d).
    destruct (W x (or_introl eq_refl) d s s1 D E) as [W1 _]. congruence.
  Qed.
  Lemma end_compound_total : forall d s, s_depth s = S d -> exists s', end_compound seal Rng fill m s = Ok s'.
  Proof. intros d s D. unfold end_compound. rewrite D. apply flush_total. Qed.

  Lemma serialize_total : forall n v, vsize v <= n -> shaped v -> forall s,
    exists s', serialize seal Rng fill m v s = Ok s'.
  Proof.
    induction n as [|n IH]; intros v SZ SH; [pose proof (vsize_pos v); lia|].
    assert (COMP : forall {A} (f : A -> ser -> out ser) (g : A -> bytes) l s tag,
      (forall x, In x l -> forall s, exists s', f x s = Ok s') ->
      (forall x, In x l -> forall d s s', s_depth s = S d -> f x s = Ok s' -> wrote seal Rng fill m s s' (g x)) ->
      exists s', (do s1 <- each f l (start s tag); end_compound seal Rng fill m s1) = Ok s').
    { intros A f g l s tag T W.
      destruct (each_total f g l T W (s_depth s) (start s tag) eq_refl) as (s1 & E & D).
      rewrite E. cbn [obind]. exact (end_compound_total _ _ D). }
    assert (LST : forall l s tag, fold_right (fun x n => vsize x + n) 0 l <= n ->
      fold_right (fun x P => shaped x /\ P) True l ->
      exists s', (do s1 <- each (serialize seal Rng fill m) l (start s tag); end_compound seal Rng fill m s1) = Ok s').
    { intros l s tag SL SHL. apply fold_and in SHL. rewrite Forall_forall in SHL.
      apply (COMP _ _ enc).
      - intros x Hx. pose proof (vsize_in l x Hx). apply IH; [lia|apply SHL; exact Hx].
      - intros x Hx. apply (serialize_in seal Rng fill m (vsize x)); [lia|apply SHL; exact Hx]. }
    intros s. destruct v; cbn [serialize shaped vsize] in *; try apply flush_total; try (exists s; reflexivity).
    - apply (COMP _ _ (fun b => [b])).
      + intros x _ t. apply flush_total.
      + intros x _ d t t' D E. exact (write_in seal Rng fill m _ _ d _ D E).
    - apply IH; [lia|exact SH].
    - apply IH; [lia|exact SH].
    - apply LST; [lia|exact SH].
    - apply LST; [lia|exact SH].
    - apply (fold_and (fun kv => shaped (fst kv) /\ shaped (snd kv))) in SH. rewrite Forall_forall in SH.
      apply (COMP _ _ (fun kv => enc (fst kv) ++ enc (snd kv))).
      + intros kv Hx t. destruct (SH kv Hx) as [S1 S2].
        pose proof (vsize_in_map l kv Hx). pose proof (vsize_pos (fst kv)). pose proof (vsize_pos (snd kv)).
        destruct (IH (fst kv) ltac:(lia) S1 t) as [t1 E1]. rewrite E1. cbn [obind].
        apply IH; [lia|exact S2].
      + intros kv Hx d t t' D E. destruct (SH kv Hx) as [S1 S2].
        destruct (serialize seal Rng fill m (fst kv) t) as [t1|e|] eqn:E1; cbn [obind] in E; try discriminate.
        assert (W1 : wrote seal Rng fill m t t1 (enc (fst kv))) by (apply (serialize_in seal Rng fill m _ (fst kv) (le_n _) S1 d t t1 D E1)).
        eapply wrote_trans; [exact W1|].
        apply (serialize_in seal Rng fill m _ (snd kv) (le_n _) S2 d); [destruct W1 as [W1 _]; congruence|exact E].
    - destruct v; try destruct SH; cbn [vsize] in *.
      + apply flush_total.
      + apply IH; [lia|exact SH].
      + apply LST; [lia|exact SH].
  Qed.
End Total.

(** * Looking only at what is taken *)
Section Local.
  Variable open : cipher -> bytes -> bytes -> bytes -> bytes -> bytes -> option bytes.
  Variable Rng : Type.
  Variable mem : N.
  Variable utf8 : bytes -> bool.
  Variable m : mini Rng.

  (** [opens c d]: [c] is one container and opens to [d]. *)
  Definition opens (c d : bytes) : Prop :=
    36 <= length c /\
    open (c_cipher (mk_config m)) (mk_key m) (firstn 12 c) (firstn 20 c) (skipn 36 c) (slice c 20 36) = Some d.

  Lemma mini_parse_local : forall input d rest, mini_parse open Rng mem m input = Ok (d, rest) ->
    exists c, input = c ++ rest /\ opens c d /\ forall more, mini_parse open Rng mem m (c ++ more) = Ok (d, more).
  Proof.
    intros input d rest H. unfold mini_parse, mini_prefix_deserialize_from, read_exact in H.
    destruct (Nat.ltb_spec (length input) mini_header_size) as [L1|L1]; cbn [obind] in H; [discriminate|].
    set (hd := firstn mini_header_size input) in *. set (r1 := skipn mini_header_size input) in *.
    assert (I1 : input = hd ++ r1) by (symmetry; apply firstn_skipn).
    assert (Lhd : length hd = 20) by (subst hd; rewrite firstn_length; unfold mini_header_size in *; lia).
    destruct (mini_header_deserialize (hd ++ repeat 0%N tag_size)) as [h|e|] eqn:Dh; cbn [obind] in H; try discriminate.
    destruct (Nat.ltb_spec (length r1) tag_size) as [L2|L2]; cbn [obind] in H; [discriminate|].
    set (tg := firstn tag_size r1) in *. set (r2 := skipn tag_size r1) in *.
    assert (I2 : r1 = tg ++ r2) by (symmetry; apply firstn_skipn).
    assert (Ltg : length tg = 16) by (subst tg; rewrite firstn_length; unfold tag_size in *; lia).
    cbn [mp_header] in H.
    destruct (with_capacity mem (m_length h)) as [cap|e|] eqn:C; cbn [obind] in H; try discriminate.
    assert (cap = m_length h).
    { unfold with_capacity in C. destruct (_ || _); [discriminate|]. congruence. }
    subst cap.
    destruct (N.ltb_spec (N.of_nat (length r2)) (m_length h)) as [L3|L3]; [discriminate|].
    destruct (Nat.ltb_spec (length r2) (N.to_nat (m_length h))) as [L4|L4]; cbn [obind] in H; [discriminate|].
    set (body := firstn (N.to_nat (m_length h)) r2) in *. set (r3 := skipn (N.to_nat (m_length h)) r2) in *.
    assert (I3 : r2 = body ++ r3) by (symmetry; apply firstn_skipn).
    assert (Lb : length body = N.to_nat (m_length h)) by (subst body; rewrite firstn_length; lia).
    set (p := {| mp_header := h; mp_raw := hd ++ tg |}) in *.
    destruct (mini_decrypt_parsed open Rng m body p) as [d'|e|] eqn:DP; cbn [obind] in H; try discriminate.
    assert (d' = d) by congruence. assert (r3 = rest) by congruence. clear H. subst d' rest.
    clearbody hd r1 tg r2 body r3. subst input r1 r2.
    exists (hd ++ tg ++ body). split; [rewrite <- !app_assoc; reflexivity|]. split.
    - split; [rewrite !app_length; lia|].
      unfold mini_decrypt_parsed in DP. subst p. cbn [mp_header] in DP.
      rewrite Lb, N2Nat.id, N.ltb_irrefl in DP.
      unfold mini_prefix_prefix, mini_prefix_tag in DP. cbn [mp_raw] in DP.
      rewrite (firstn_exact hd tg mini_header_size) in DP by (rewrite Lhd; reflexivity).
      assert (T : slice (hd ++ tg) mini_header_size (mini_header_size + tag_size) = tg).
      { rewrite <- (app_nil_r tg) at 1. apply slice_app3; [rewrite Lhd|rewrite Ltg]; reflexivity. }
      rewrite T in DP.
      rewrite (firstn_all2 body (Nat.eq_le_incl _ _ Lb)), (skipn_all2 body (Nat.eq_le_incl _ _ Lb)) in DP.
      rewrite (firstn_exact hd (tg ++ body) 20) by (rewrite Lhd; reflexivity).
      assert (S36 : skipn 36 (hd ++ tg ++ body) = body)
        by (rewrite app_assoc; apply skipn_exact; rewrite app_length, Lhd, Ltg; reflexivity).
      assert (T2 : slice (hd ++ tg ++ body) 20 36 = tg) by (apply slice_app3; [rewrite Lhd|rewrite Ltg]; reflexivity).
      assert (N12 : firstn 12 (hd ++ tg ++ body) = m_nonce h).
      { unfold mini_header_deserialize in Dh. destruct (_ <? _); [discriminate|]. injection Dh as <-. cbn [m_nonce].
        unfold slice. cbn [skipn]. change (12 - 0) with 12.
        rewrite !firstn_app, Lhd. reflexivity. }
      rewrite S36, T2, N12.
      destruct (open (c_cipher (mk_config m)) (mk_key m) (m_nonce h) hd body tg); [|discriminate].
      rewrite app_nil_r in DP. congruence.
    - intros more. rewrite <- !app_assoc.
      unfold mini_parse, mini_prefix_deserialize_from.
      rewrite (read_exact_eq hd (tg ++ body ++ more) mini_header_size) by (rewrite Lhd; reflexivity). cbn [obind].
      rewrite Dh. cbn [obind].
      rewrite (read_exact_eq tg (body ++ more) tag_size) by (rewrite Ltg; reflexivity). cbn [obind mp_header].
      rewrite C. cbn [obind].
      destruct (N.ltb_spec (N.of_nat (length (body ++ more))) (m_length h)) as [Z|Z]; [rewrite app_length, Lb in Z; lia|].
      rewrite (read_exact_eq body more (N.to_nat (m_length h))) by (rewrite Lb; reflexivity). cbn [obind].
      fold p. rewrite DP. reflexivity.
  Qed.

  (** [takes s s' cs]: [s] becomes [s'] by opening the containers [cs] at the front of the file. *)
  Definition opened (c : bytes) : Prop := exists d, opens c d.
  Definition takes {A} (f : des -> de_out (A * des)) (s : des) (x : A) (s' : des) (cs : list bytes) : Prop :=
    Forall opened cs /\ d_file s = concat cs ++ d_file s' /\
    forall more, f {| d_file := concat cs ++ more; d_block := d_block s |}
                 = DOk (x, {| d_file := more; d_block := d_block s' |}).
  Definition local {A} (f : des -> de_out (A * des)) : Prop :=
    forall s x s', f s = DOk (x, s') -> exists cs, takes f s x s' cs.

  Lemma opened_len : forall cs, Forall opened cs -> length cs <= length (concat cs).
  Proof.
    clear. intros cs H. induction H as [|c cs (d & L & _) H IH]; cbn [concat length]; [lia|].
    rewrite app_length. lia.
  Qed.
  Lemma load_bytes_local : forall fuel n s s', load_bytes open Rng mem m fuel n s = Ok (true, s') ->
    exists cs, Forall opened cs /\ d_file s = concat cs ++ d_file s' /\
      forall more fuel', length cs < fuel' ->
        load_bytes open Rng mem m fuel' n {| d_file := concat cs ++ more; d_block := d_block s |}
        = Ok (true, {| d_file := more; d_block := d_block s' |}).
  Proof.
    induction fuel as [|f IH]; intros n s s' H; cbn [load_bytes] in H;
      destruct (Nat.leb_spec n (length (d_block s))) as [Y|Y].
    - injection H as <-. exists []. split; [constructor|]. split; [reflexivity|].
      intros more [|fuel'] L; cbn [load_bytes d_block concat app];
      destruct (Nat.leb_spec n (length (d_block s))); try lia; reflexivity.
    - discriminate.
    - injection H as <-. exists []. split; [constructor|]. split; [reflexivity|].
      intros more [|fuel'] L; cbn [load_bytes d_block concat app];
      destruct (Nat.leb_spec n (length (d_block s))); try lia; reflexivity.
    - unfold file_read in H.
      destruct (mini_parse open Rng mem m (d_file s)) as [[d rest]|e|] eqn:P; cbn [obind] in H; try discriminate.
      destruct (mini_parse_local _ _ _ P) as (c & I1 & OP & LO).
      destruct d as [|d0 dr]; cbn [obind] in H; [discriminate|].
      destruct (block_new (d0 :: dr)) as [b|] eqn:BN; [|discriminate].
      destruct (IH _ _ _ H) as (cs & FO & E & G). cbn [d_file d_block] in *.
      exists (c :: cs). split; [constructor; [exists (d0 :: dr); exact OP|exact FO]|].
      split; [cbn [concat]; rewrite I1, E, app_assoc; reflexivity|].
      intros more [|fuel'] L; [cbn in L; lia|]. cbn [load_bytes d_block d_file concat].
      destruct (Nat.leb_spec n (length (d_block s))); [lia|].
      unfold file_read. rewrite <- app_assoc, LO. cbn [obind]. rewrite BN.
      cbn [length] in L. apply G. lia.
  Qed.
  Lemma read_n_local : forall n, local (read_n open Rng mem m n).
  Proof.
    intros n s x s' H. unfold read_n in H.
    destruct (load_bytes open Rng mem m (S (length (d_file s))) n s) as [[[] s1]|e|] eqn:L; cbn [map_io dbind] in H; try discriminate.
    destruct (load_bytes_local _ _ _ _ L) as (cs & FO & E & G).
    injection H as <- <-. exists cs. split; [exact FO|]. cbn [d_file d_block]. split; [exact E|].
    intros more. unfold read_n. rewrite G; [reflexivity|].
    cbn [d_file]. rewrite app_length. pose proof (opened_len cs FO). lia.
  Qed.

  Lemma local_ret : forall {A} (x : A), local (fun s => DOk (x, s)).
  Proof.
    intros A x s y s' H. injection H as <- <-. exists []. split; [constructor|]. split; [reflexivity|]. reflexivity.
  Qed.
  Lemma local_err : forall {A} e, local (fun _ => DErr e : de_out (A * des)).
  Proof. intros A e s y s' H. discriminate. Qed.
  Lemma local_halt : forall {A}, local (fun _ => Halt : de_out (A * des)).
  Proof. intros A s y s' H. discriminate. Qed.
  Lemma local_bind : forall {A B} (f : des -> de_out (A * des)) (g : A -> des -> de_out (B * des)),
    local f -> (forall a, local (g a)) -> local (fun s => dd (a, s1) <- f s; g a s1).
  Proof.
    intros A B f g F G s y s' H.
    destruct (f s) as [[a s1]|e|] eqn:E; cbn [dbind] in H; try discriminate.
    destruct (F _ _ _ E) as (cs1 & O1 & E1 & R1). destruct (G a _ _ _ H) as (cs2 & O2 & E2 & R2).
    exists (cs1 ++ cs2). split; [apply Forall_app; split; assumption|].
    split; [rewrite concat_app, <- app_assoc, <- E2; exact E1|].
    intros more. rewrite concat_app, <- app_assoc, R1. cbn [dbind]. apply R2.
  Qed.
  Lemma local_if : forall {A} (b : bool) (f g : des -> de_out (A * des)), local f -> local g ->
    local (fun s => if b then f s else g s).
  Proof. intros A [] f g F G; assumption. Qed.
  Lemma read_int_local : forall w, local (read_int open Rng mem m w).
  Proof. intros w. apply (local_bind _ (fun bs s => DOk (un_le bs, s)) (read_n_local w)). intros a. apply local_ret. Qed.
  Lemma read_len_local : local (read_len open Rng mem m).
  Proof. apply (local_bind _ (fun n s => DOk (N.to_nat n, s)) (read_int_local 8)). intros a. apply local_ret. Qed.
  Lemma read_byte_buf_local : local (read_byte_buf open Rng mem m).
  Proof. apply (local_bind _ (fun n s => read_n open Rng mem m n s) read_len_local). intros a. apply read_n_local. Qed.
  Lemma repeat_read_local : forall {A} (f : des -> de_out (A * des)) n, local f -> local (repeat_read f n).
  Proof.
    intros A f n F. induction n as [|n IH]; cbn [repeat_read]; [apply local_ret|].
    apply (local_bind f (fun x s1 => dd (xs, s2) <- repeat_read f n s1; DOk (x :: xs, s2)) F). intros x.
    apply (local_bind (repeat_read f n) (fun xs s => DOk (x :: xs, s)) IH). intros xs. apply local_ret.
  Qed.
  Lemma each_read_local : forall fs, Forall local fs -> local (each_read fs).
  Proof.
    intros fs F. induction F as [|f fs F1 F IH]; cbn [each_read]; [apply local_ret|].
    apply (local_bind f (fun x s1 => dd (xs, s2) <- each_read fs s1; DOk (x :: xs, s2)) F1). intros x.
    apply (local_bind (each_read fs) (fun xs s => DOk (x :: xs, s)) IH). intros xs. apply local_ret.
  Qed.

  Fixpoint tsize (t : ty) : nat :=
    match t with
    | TOption x | TNew x | TSeq x => S (tsize x)
    | TMap x y => S (tsize x + tsize y)
    | TTuple l | TEnum l => S (fold_right (fun x n => tsize x + n) 0 l)
    | _ => 1
    end.
  Lemma tsize_in : forall (l : list ty) x, In x l -> tsize x <= fold_right (fun x n => tsize x + n) 0 l.
  Proof.
    clear. induction l as [|a l IH]; intros x H; [destruct H|]. cbn [fold_right].
    destruct H as [->|H]; [lia|]. specialize (IH x H). lia.
  Qed.
  Lemma deserialize_local : forall n t, tsize t <= n -> local (deserialize open Rng mem utf8 m t).
  Proof.
    induction n as [|n IH]; intros t SZ; [destruct t; cbn in SZ; lia|].
    assert (EACH : forall ts, fold_right (fun x n => tsize x + n) 0 ts <= n ->
              local (each_read (map (deserialize open Rng mem utf8 m) ts))).
    { intros ts SL. apply each_read_local. rewrite Forall_map. apply Forall_forall. intros x Hx.
      apply IH. pose proof (tsize_in ts x Hx). lia. }
    destruct t as [|w| | | |t'| |t'|t'|ts|k v|ts]; cbn [deserialize tsize] in *.
    - apply (local_bind _ (fun n s1 => if N.eqb n 0 then DOk (VBool false, s1) else
        if N.eqb n 1 then DOk (VBool true, s1) else DErr InvalidBoolTag) (read_int_local 1)).
      intros a. apply local_if; [apply local_ret|]. apply local_if; [apply local_ret|apply local_err].
    - apply (local_bind _ (fun n s1 => DOk (VInt w n, s1)) (read_int_local w)). intros a. apply local_ret.
    - apply (local_bind _ (fun n s1 => if char_ok n then DOk (VChar n, s1) else DErr InvalidCharacter) (read_int_local 4)).
      intros a. apply local_if; [apply local_ret|apply local_err].
    - apply (local_bind _ (fun bs s1 => if utf8 bs then DOk (VStr bs, s1) else DErr FromUtf8Error) read_byte_buf_local).
      intros a. apply local_if; [apply local_ret|apply local_err].
    - apply (local_bind _ (fun bs s1 => DOk (VBytes bs, s1)) read_byte_buf_local). intros a. apply local_ret.
    - apply (local_bind _ (fun n s1 => if N.eqb n 0 then DOk (VNone, s1) else
        if N.eqb n 1 then dd (x, s2) <- deserialize open Rng mem utf8 m t' s1; DOk (VSome x, s2)
        else DErr InvalidOptionTag) (read_int_local 1)).
      intros a. apply local_if; [apply local_ret|]. apply local_if; [|apply local_err].
      apply (local_bind _ (fun x s2 => DOk (VSome x, s2)) (IH t' ltac:(lia))). intros x. apply local_ret.
    - apply local_ret.
    - apply (local_bind _ (fun x s1 => DOk (VNew x, s1)) (IH t' ltac:(lia))). intros a. apply local_ret.
    - apply (local_bind _ (fun n s1 => dd (l, s2) <- repeat_read (deserialize open Rng mem utf8 m t') n s1; DOk (VSeq l, s2)) read_len_local).
      intros a. apply (local_bind _ (fun l s2 => DOk (VSeq l, s2)) (repeat_read_local _ a (IH t' ltac:(lia)))).
      intros l. apply local_ret.
    - apply (local_bind _ (fun l s1 => DOk (VTuple l, s1)) (EACH ts ltac:(lia))). intros a. apply local_ret.
    - set (kv := fun t1 => dd (a, t2) <- deserialize open Rng mem utf8 m k t1;
                           dd (b, t3) <- deserialize open Rng mem utf8 m v t2; DOk ((a, b), t3)).
      assert (LK : local kv).
      { apply (local_bind _ (fun a t2 => dd (b, t3) <- deserialize open Rng mem utf8 m v t2; DOk ((a, b), t3)) (IH k ltac:(lia))).
        intros a. apply (local_bind _ (fun b t3 => DOk ((a, b), t3)) (IH v ltac:(lia))). intros b. apply local_ret. }
      apply (local_bind _ (fun n s1 => dd (l, s2) <- repeat_read kv n s1; DOk (VMap l, s2)) read_len_local).
      intros a. apply (local_bind _ (fun l s2 => DOk (VMap l, s2)) (repeat_read_local _ a LK)).
      intros l. apply local_ret.
    - set (pay := fun p => match p with
        | TUnit => fun s' => DOk (VUnit, s')
        | TNew t' => fun s' => dd (x, s2) <- deserialize open Rng mem utf8 m t' s'; DOk (VNew x, s2)
        | TTuple us => fun s' => dd (l, s2) <- each_read (map (deserialize open Rng mem utf8 m) us) s'; DOk (VTuple l, s2)
        | _ => fun _ => Halt
        end).
      assert (LP : forall p, In p ts -> local (pay p)).
      { intros p Hp. pose proof (tsize_in ts p Hp) as SP. destruct p; unfold pay; try apply local_halt; cbn [tsize] in SP.
        - apply local_ret.
        - apply (local_bind _ (fun x s2 => DOk (VNew x, s2)) (IH p ltac:(lia))). intros a. apply local_ret.
        - apply (local_bind _ (fun l s2 => DOk (VTuple l, s2)) (EACH ts0 ltac:(lia))). intros a. apply local_ret. }
      apply (local_bind _ (fun i s1 => match nth_error (map pay ts) (N.to_nat i) with
        | Some f => dd (x, s2) <- f s1; DOk (VEnum (N.to_nat i) x, s2) | None => DErr Custom end) (read_int_local 4)).
      intros i. destruct (nth_error (map pay ts) (N.to_nat i)) as [f|] eqn:NE; [|apply local_err].
      apply nth_error_In in NE. apply in_map_iff in NE. destruct NE as (p & <- & Hp).
      apply (local_bind _ (fun x s2 => DOk (VEnum (N.to_nat i) x, s2)) (LP p Hp)). intros x. apply local_ret.
  Qed.
End Local.
