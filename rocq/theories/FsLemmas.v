(** Lemmas about the encrypted file model. *)
From Coq Require Import List NArith Lia Bool Arith.
From Verif Require Import CoModel CoSpec CoLemmas CoProps FsModel FsSpec.
Import ListNotations.
Open Scope nat_scope.

(** * Sizes, for induction over values *)
Fixpoint vsize (v : val) : nat :=
  match v with
  | VSome x | VNew x | VEnum _ x => S (vsize x)
  | VSeq l | VTuple l => S (fold_right (fun x n => vsize x + n) 0 l)
  | VMap l => S (fold_right (fun kv n => vsize (fst kv) + vsize (snd kv) + n) 0 l)
  | _ => 1
  end.
Lemma vsize_in : forall (l : list val) x, In x l -> vsize x <= fold_right (fun x n => vsize x + n) 0 l.
Proof.
  induction l as [|a l IH]; intros x H; [destruct H|]. cbn [fold_right].
  destruct H as [->|H]; [lia|]. specialize (IH x H). lia.
Qed.
Lemma vsize_in_map : forall (l : list (val * val)) kv, In kv l ->
  vsize (fst kv) + vsize (snd kv) <= fold_right (fun kv n => vsize (fst kv) + vsize (snd kv) + n) 0 l.
Proof.
  induction l as [|a l IH]; intros x H; [destruct H|]. cbn [fold_right].
  destruct H as [->|H]; [lia|]. specialize (IH x H). lia.
Qed.
Lemma vsize_pos : forall v, 1 <= vsize v.
Proof. destruct v; cbn [vsize]; lia. Qed.

(** * The bytes of a value *)
Fixpoint enc (v : val) : bytes :=
  match v with
  | VBool b => [if b then 1%N else 0%N]
  | VInt w n => le w n
  | VChar n => le 4 n
  | VStr s => len_tag (length s) ++ s
  | VBytes s => len_tag (length s) ++ s
  | VNone => [0%N]
  | VSome x => 1%N :: enc x
  | VUnit => []
  | VNew x => enc x
  | VSeq l => len_tag (length l) ++ concat (map enc l)
  | VTuple l => concat (map enc l)
  | VMap l => len_tag (length l) ++ concat (map (fun kv => enc (fst kv) ++ enc (snd kv)) l)
  | VEnum i p => variant_tag i ++ enc p
  end.

(** Shape required of the payload of an enum value. *)
Fixpoint shaped (v : val) : Prop :=
  match v with
  | VSome x | VNew x => shaped x
  | VSeq l | VTuple l => fold_right (fun x P => shaped x /\ P) True l
  | VMap l => fold_right (fun kv P => (shaped (fst kv) /\ shaped (snd kv)) /\ P) True l
  | VEnum _ p =>
      match p with
      | VUnit => True
      | VNew x => shaped x
      | VTuple l => fold_right (fun x P => shaped x /\ P) True l
      | _ => False
      end
  | _ => True
  end.

Lemma fold_and : forall {A} (P : A -> Prop) l, fold_right (fun x Q => P x /\ Q) True l <-> Forall P l.
Proof.
  intros A P. induction l as [|a l IH]; cbn [fold_right].
  - split; auto.
  - rewrite IH. split; [intros [X Y]; constructor; assumption|intros X; inversion X; auto].
Qed.
Lemma typed_shaped : forall utf8 n v t, vsize v <= n -> has_type utf8 t v -> shaped v.
Proof.
  intros utf8. induction n as [|n IH]; intros v t S H; [pose proof (vsize_pos v); lia|].
  assert (L : forall l ts, fold_right (fun x n => vsize x + n) 0 l <= n -> Forall2 (has_type utf8) ts l ->
              fold_right (fun x P => shaped x /\ P) True l).
  { intros l ts SL F. apply fold_and. apply Forall_forall. intros x Hx.
    assert (exists u, has_type utf8 u x) as [u Hu].
    { clear - F Hx. induction F as [|u y us ys H F IHF]; [destruct Hx|]. destruct Hx as [->|Hx]; eauto. }
    apply (IH x u); [|exact Hu]. pose proof (vsize_in l x Hx). lia. }
  destruct H; cbn [shaped vsize] in *; auto.
  - apply (IH v t); [lia|assumption].
  - apply (IH v t); [lia|assumption].
  - apply fold_and. apply Forall_forall. intros x Hx. rewrite Forall_forall in H0.
    apply (IH x t); [|apply H0; exact Hx]. pose proof (vsize_in l x Hx). lia.
  - apply (L l ts); [lia|assumption].
  - apply (fold_and (fun kv => shaped (fst kv) /\ shaped (snd kv))). apply Forall_forall. intros kv Hx.
    rewrite Forall_forall in H0. destruct (H0 kv Hx) as [A B].
    pose proof (vsize_in_map l kv Hx). pose proof (vsize_pos (fst kv)). pose proof (vsize_pos (snd kv)).
    split; [apply (IH _ t)|apply (IH _ u)]; try assumption; lia.
  - apply (IH v t); [lia|assumption].
  - apply (L l us); [lia|assumption].
Qed.

(** * Blocks *)
Lemma block_size_pos : 0 < block_size.
Proof. unfold block_size. lia. Qed.
Global Opaque block_size.
Lemma resize_len : forall n d, length d <= n -> length (resize n d) = n.
Proof. intros n d H. unfold resize. rewrite app_length, firstn_length, repeat_length. lia. Qed.
Lemma resize_full : forall n d, length d = n -> resize n d = d.
Proof. intros n d <-. unfold resize. rewrite firstn_all, Nat.sub_diag, app_nil_r. reflexivity. Qed.
Lemma resize_short : forall n d, length d <= n -> resize n d = d ++ repeat 0%N (n - length d).
Proof. intros n d H. unfold resize. rewrite firstn_all2 by exact H. reflexivity. Qed.

Section Fs.
  Variable kdf : bytes -> bytes -> N -> bytes.
  Variable seal : cipher -> bytes -> bytes -> bytes -> bytes -> option (bytes * bytes).
  Variable open : cipher -> bytes -> bytes -> bytes -> bytes -> bytes -> option bytes.
  Variable Rng : Type.
  Variable from_seed : bytes -> Rng.
  Variable fill : Rng -> nat -> bytes * Rng.
  Variable mem : N.
  Variable utf8 : bytes -> bool.
  Variable m : mini Rng.

  (** [dumped bl cs]: the containers of a list of full blocks. *)
  Definition dumped (bl cs : list bytes) : Prop :=
    Forall2 (fun b c => length b = block_size /\ mini_dump seal Rng fill m b = Ok c) bl cs.

  (** [wrote s s' bs]: the serializer went from [s] to [s'] by taking in the bytes [bs]. *)
  Definition wrote (s s' : ser) (bs : bytes) : Prop :=
    s_depth s' = s_depth s /\
    exists bl cs, dumped bl cs /\ s_file s' = s_file s ++ concat cs /\
      s_block s ++ bs = concat bl ++ s_block s'.
  (** [closed s s' bs]: the same, with everything padded and written out. *)
  Definition closed (s s' : ser) (bs : bytes) : Prop :=
    s_depth s' = s_depth s /\ s_block s' = [] /\
    exists bl cs pad, dumped bl cs /\ s_file s' = s_file s ++ concat cs /\ pad < block_size /\
      s_block s ++ bs ++ repeat 0%N pad = concat bl.

  Lemma dumped_blocks_len : forall bl cs, dumped bl cs -> length (concat bl) = length bl * block_size.
  Proof.
    clear. intros bl cs H. induction H as [|b c bl cs [L _] H IH]; [reflexivity|].
    cbn [concat length]. rewrite app_length, IH, L. reflexivity.
  Qed.
  Lemma wrote_refl : forall s, wrote s s [].
  Proof.
    clear. intros s. split; [reflexivity|]. exists [], []. split; [constructor|].
    cbn [concat]. rewrite !app_nil_r. split; reflexivity.
  Qed.
  Lemma wrote_trans : forall s1 s2 s3 a b, wrote s1 s2 a -> wrote s2 s3 b -> wrote s1 s3 (a ++ b).
  Proof.
    clear. intros s1 s2 s3 a b (D1 & bl1 & cs1 & X1 & F1 & E1) (D2 & bl2 & cs2 & X2 & F2 & E2).
    split; [congruence|]. exists (bl1 ++ bl2), (cs1 ++ cs2).
    split; [apply Forall2_app; assumption|].
    split; [rewrite F2, F1, concat_app, app_assoc; reflexivity|].
    rewrite app_assoc, E1, concat_app, <- !app_assoc. f_equal. exact E2.
  Qed.
  Lemma wrote_closed : forall s1 s2 s3 a b, wrote s1 s2 a -> closed s2 s3 b -> closed s1 s3 (a ++ b).
  Proof.
    clear. intros s1 s2 s3 a b (D1 & bl1 & cs1 & X1 & F1 & E1) (D2 & N2 & bl2 & cs2 & pad & X2 & F2 & P2 & E2).
    split; [congruence|]. split; [exact N2|]. exists (bl1 ++ bl2), (cs1 ++ cs2), pad.
    split; [apply Forall2_app; assumption|].
    split; [rewrite F2, F1, concat_app, app_assoc; reflexivity|]. split; [exact P2|].
    rewrite <- app_assoc, app_assoc, E1, concat_app, <- !app_assoc. f_equal. exact E2.
  Qed.
  Lemma wrote_extend : forall s bs, wrote s (extend s bs) bs.
  Proof.
    clear. intros s bs. split; [reflexivity|]. exists [], []. split; [constructor|].
    cbn [concat extend s_file s_block]. rewrite app_nil_r. split; reflexivity.
  Qed.

  Lemma flush_intermediate_wrote : forall fuel s s',
    flush_intermediate seal Rng fill m fuel s = Ok s' -> wrote s s' [].
  Proof.
    clear. induction fuel as [|f IH]; intros s s' H; cbn [flush_intermediate] in H;
      unfold block_parse_full, block_parse in H;
      destruct (Nat.leb_spec block_size (length (s_block s))) as [L|L].
    - discriminate.
    - injection H as <-. apply wrote_refl.
    - rewrite Nat.min_r in H by exact L.
      rewrite resize_full in H by (rewrite firstn_length; lia).
      unfold file_write in H.
      destruct (mini_dump seal Rng fill m (firstn block_size (s_block s))) as [c|e|] eqn:D; cbn [obind] in H; try discriminate.
      apply IH in H. destruct H as (E & bl & cs & X & F & G). cbn [s_depth s_file s_block] in *.
      split; [exact E|]. exists (firstn block_size (s_block s) :: bl), (c :: cs).
      split; [constructor; [split; [rewrite firstn_length; lia|exact D]|exact X]|].
      split; [rewrite F; cbn [concat]; rewrite app_assoc; reflexivity|].
      cbn [concat]. rewrite app_nil_r in *. rewrite <- app_assoc, <- G, firstn_skipn. reflexivity.
    - injection H as <-. apply wrote_refl.
  Qed.
  Lemma flush_end_closed : forall fuel s s',
    flush_end seal Rng fill m fuel s = Ok s' -> closed s s' [].
  Proof.
    clear. induction fuel as [|f IH]; intros s s' H; cbn [flush_end] in H;
      destruct (s_block s) as [|b0 r0] eqn:B.
    - injection H as <-. split; [reflexivity|]. split; [exact B|]. exists [], [], 0. rewrite B.
      split; [constructor|]. cbn. rewrite app_nil_r. split; [reflexivity|]. split; [exact block_size_pos|reflexivity].
    - discriminate.
    - injection H as <-. split; [reflexivity|]. split; [exact B|]. exists [], [], 0. rewrite B.
      split; [constructor|]. cbn. rewrite app_nil_r. split; [reflexivity|]. split; [exact block_size_pos|reflexivity].
    - unfold block_parse in H. rewrite <- B in H.
      set (n := Nat.min (length (s_block s)) block_size) in *.
      unfold file_write in H.
      assert (LF : length (firstn n (s_block s)) <= block_size) by (rewrite firstn_length; subst n; lia).
      destruct (mini_dump seal Rng fill m (resize block_size (firstn n (s_block s)))) as [c|e|] eqn:D; cbn [obind] in H; try discriminate.
      apply IH in H. destruct H as (E & N & bl & cs & pad & X & F & PB & G). cbn [s_depth s_file s_block] in *.
      split; [exact E|]. split; [exact N|]. cbn [app] in G.
      destruct (Nat.le_gt_cases block_size (length (s_block s))) as [L|L].
      + exists (resize block_size (firstn n (s_block s)) :: bl), (c :: cs), pad.
        split; [constructor; [split; [apply resize_len; exact LF|exact D]|exact X]|].
        split; [rewrite F; cbn [concat]; rewrite app_assoc; reflexivity|]. split; [exact PB|].
        cbn [concat app]. rewrite resize_full by (rewrite firstn_length; subst n; lia).
        rewrite <- G, app_assoc, firstn_skipn. reflexivity.
      + assert (Nn : n = length (s_block s)) by (subst n; lia).
        rewrite Nn in *. rewrite firstn_all, skipn_all in *. cbn [app] in G.
        assert (pad = 0).
        { pose proof (f_equal (@length _) G) as LG. rewrite repeat_length, (dumped_blocks_len bl cs X) in LG.
          destruct (length bl); [exact LG|]. cbn [Nat.mul] in LG. lia. }
        subst pad.
        exists (resize block_size (s_block s) :: bl), (c :: cs), (block_size - length (s_block s) + 0).
        split; [constructor; [split; [apply resize_len; exact LF|exact D]|exact X]|].
        split; [rewrite F; cbn [concat]; rewrite app_assoc; reflexivity|].
        split; [rewrite B; cbn [length]; pose proof block_size_pos; lia|].
        cbn [concat app]. rewrite <- G, resize_short by exact LF. rewrite <- app_assoc, repeat_app. reflexivity.
  Qed.

  Lemma flush_in : forall s s' d, s_depth s = S d -> flush seal Rng fill m s = Ok s' -> wrote s s' [].
  Proof. intros s s' d E H. unfold flush in H. rewrite E in H. exact (flush_intermediate_wrote _ _ _ H). Qed.
  Lemma flush_out : forall s s', s_depth s = 0 -> flush seal Rng fill m s = Ok s' -> closed s s' [].
  Proof. intros s s' E H. unfold flush in H. rewrite E in H. exact (flush_end_closed _ _ _ H). Qed.
  Lemma write_in : forall s s' d bs, s_depth s = S d -> write_bytes seal Rng fill m s bs = Ok s' -> wrote s s' bs.
  Proof.
    intros s s' d bs E H. unfold write_bytes in H. apply (flush_in _ _ d) in H; [|exact E].
    rewrite <- (app_nil_r bs). eapply wrote_trans; [apply wrote_extend|exact H].
  Qed.
  Lemma write_out : forall s s' bs, s_depth s = 0 -> write_bytes seal Rng fill m s bs = Ok s' -> closed s s' bs.
  Proof.
    intros s s' bs E H. unfold write_bytes in H. apply flush_out in H; [|exact E].
    rewrite <- (app_nil_r bs). eapply wrote_closed; [apply wrote_extend|exact H].
  Qed.

  (** Going one level down and up again. *)
  Definition down (s : ser) : ser := {| s_file := s_file s; s_block := s_block s; s_depth := S (s_depth s) |}.
  Lemma compound : forall s bs s1 s' body,
    wrote (start s bs) s1 body -> end_compound seal Rng fill m s1 = Ok s' ->
    exists s2, s_depth s2 = s_depth s /\ wrote s s2 (bs ++ body) /\ flush seal Rng fill m s2 = Ok s'.
  Proof.
    intros s bs s1 s' body (D & bl & cs & X & F & E) H. unfold end_compound in H.
    unfold start in D. cbn [extend s_depth] in D. rewrite D in H.
    exists {| s_file := s_file s1; s_block := s_block s1; s_depth := s_depth s |}.
    split; [reflexivity|]. split; [|exact H].
    split; [reflexivity|]. exists bl, cs. split; [exact X|]. cbn [s_file s_block start extend] in *.
    split; [exact F|]. rewrite app_assoc. exact E.
  Qed.

  Lemma each_wrote : forall {A} (f : A -> ser -> out ser) (g : A -> bytes) l,
    (forall x, In x l -> forall d s s', s_depth s = S d -> f x s = Ok s' -> wrote s s' (g x)) ->
    forall d s s', s_depth s = S d -> each f l s = Ok s' -> wrote s s' (concat (map g l)).
  Proof.
    clear. intros A f g. induction l as [|x l IH]; intros H d s s' D E.
    - cbn in E. injection E as <-. apply wrote_refl.
    - cbn [each] in E. destruct (f x s) as [s1|e|] eqn:F; cbn [obind] in E; try discriminate.
      assert (W := H x (or_introl eq_refl) d s s1 D F).
      cbn [map concat]. eapply wrote_trans; [exact W|].
      apply (IH (fun y Hy => H y (or_intror Hy)) d); [destruct W as [W _]; congruence|exact E].
  Qed.

  Definition ser_in (v : val) : Prop := forall d s s', s_depth s = S d ->
    serialize seal Rng fill m v s = Ok s' -> wrote s s' (enc v).
  Definition ser_out (v : val) : Prop := forall s s', s_depth s = 0 ->
    serialize seal Rng fill m v s = Ok s' ->
    if ends_in_unit v then wrote s s' (enc v) /\ s_file s' = s_file s else closed s s' (enc v).

  Lemma flat_bytes : forall l : bytes, concat (map (fun b => [b]) l) = l.
  Proof. induction l as [|a l IH]; [reflexivity|]. cbn. rewrite IH. reflexivity. Qed.

  (** [serialize] below the top level takes in the bytes of the value. *)
  Lemma serialize_in : forall n v, vsize v <= n -> shaped v -> ser_in v.
  Proof.
    induction n as [|n IH]; intros v SZ SH; [pose proof (vsize_pos v); lia|].
    assert (COMP : forall s d s' tag f (g : val -> bytes) l (HF : forall x, In x l -> forall d s s', s_depth s = S d -> f x s = Ok s' -> wrote s s' (g x)),
              s_depth s = S d ->
              (do s1 <- each f l (start s tag); end_compound seal Rng fill m s1) = Ok s' ->
              wrote s s' (tag ++ concat (map g l))).
    { intros s d s' tag f g l HF D H. destruct (each f l (start s tag)) as [s1|e|] eqn:E; cbn [obind] in H; try discriminate.
      pose proof (each_wrote f g l HF (s_depth s) (start s tag) s1 eq_refl E) as W.
      destruct (compound _ _ _ _ _ W H) as (s2 & D2 & W2 & F).
      rewrite <- (app_nil_r (tag ++ _)). eapply wrote_trans; [exact W2|]. apply (flush_in _ _ d); [congruence|exact F]. }
    intros d s s' D H. destruct v; cbn [serialize enc shaped vsize] in *.
    - exact (write_in _ _ d _ D H).
    - exact (write_in _ _ d _ D H).
    - exact (write_in _ _ d _ D H).
    - destruct (each (fun b t => write_bytes seal Rng fill m t [b]) s0 (start s (len_tag (length s0)))) as [s1|e|] eqn:E; cbn [obind] in H; try discriminate.
      assert (W : wrote (start s (len_tag (length s0))) s1 (concat (map (fun b => [b]) s0))).
      { apply (each_wrote (fun b t => write_bytes seal Rng fill m t [b]) (fun b => [b]) s0) with (d := s_depth s); [|reflexivity|exact E].
        intros x _ d0 t t' Dt Ht. exact (write_in _ _ d0 _ Dt Ht). }
      rewrite flat_bytes in W.
      destruct (compound _ _ _ _ _ W H) as (s2 & D2 & W2 & F).
      rewrite <- (app_nil_r (len_tag (length s0) ++ s0)). eapply wrote_trans; [exact W2|]. apply (flush_in _ _ d); [congruence|exact F].
    - rewrite <- (app_nil_r (len_tag (length s0) ++ s0)). eapply wrote_trans; [|apply (flush_in _ _ d) in H; [exact H|exact D]].
      eapply wrote_trans; apply wrote_extend.
    - exact (write_in _ _ d _ D H).
    - change (1%N :: enc v) with ([1%N] ++ enc v). eapply wrote_trans; [apply wrote_extend|].
      apply (IH v ltac:(lia) SH d); [exact D|exact H].
    - injection H as <-. apply wrote_refl.
    - exact (IH v ltac:(lia) SH d _ _ D H).
    - apply (COMP s d s' _ (serialize seal Rng fill m) enc l); [|exact D|exact H].
      intros x Hx. apply fold_and in SH. rewrite Forall_forall in SH. apply IH; [|apply SH; exact Hx].
      pose proof (vsize_in l x Hx). lia.
    - apply (COMP s d s' [] (serialize seal Rng fill m) enc l); [|exact D|exact H].
      intros x Hx. apply fold_and in SH. rewrite Forall_forall in SH. apply IH; [|apply SH; exact Hx].
      pose proof (vsize_in l x Hx). lia.
    - destruct (each _ l (start s (len_tag (length l)))) as [s1|e|] eqn:E; cbn [obind] in H; try discriminate.
      assert (W : wrote (start s (len_tag (length l))) s1 (concat (map (fun kv => enc (fst kv) ++ enc (snd kv)) l))).
      { eapply each_wrote with (d := s_depth s); [|reflexivity|exact E]. cbv beta.
        intros kv Hx d0 t t' Dt Ht.
        apply (fold_and (fun kv => shaped (fst kv) /\ shaped (snd kv))) in SH. rewrite Forall_forall in SH.
        destruct (SH kv Hx) as [S1 S2].
        pose proof (vsize_in_map l kv Hx). pose proof (vsize_pos (fst kv)). pose proof (vsize_pos (snd kv)).
        destruct (serialize seal Rng fill m (fst kv) t) as [t1|e|] eqn:T1; cbn [obind] in Ht; try discriminate.
        assert (W1 : wrote t t1 (enc (fst kv))) by (apply (IH (fst kv) ltac:(lia) S1 d0 t t1 Dt T1)).
        eapply wrote_trans; [exact W1|].
        apply (IH (snd kv) ltac:(lia) S2 d0); [destruct W1 as [W1 _]; congruence|exact Ht]. }
      destruct (compound _ _ _ _ _ W H) as (s2 & D2 & W2 & F).
      rewrite <- (app_nil_r (len_tag (length l) ++ _)). eapply wrote_trans; [exact W2|]. apply (flush_in _ _ d); [congruence|exact F].
    - destruct v; try destruct SH; cbn [enc vsize] in *.
      + rewrite app_nil_r. exact (write_in _ _ d _ D H).
      + eapply wrote_trans; [apply wrote_extend|]. apply (IH v ltac:(lia) SH d); [exact D|exact H].
      + apply (COMP s d s' _ (serialize seal Rng fill m) enc l); [|exact D|exact H].
        intros x Hx. apply fold_and in SH. rewrite Forall_forall in SH. apply IH; [|apply SH; exact Hx].
        pose proof (vsize_in l x Hx). lia.
  Qed.

  (** [serialize] at the top level: everything is written out, unless the value ends in a unit, when
      nothing is. *)
  Lemma serialize_out : forall n v, vsize v <= n -> shaped v -> ser_out v.
  Proof.
    induction n as [|n IH]; intros v SZ SH; [pose proof (vsize_pos v); lia|].
    assert (COMP : forall s s' tag f (g : val -> bytes) l (HF : forall x, In x l -> forall d s s', s_depth s = S d -> f x s = Ok s' -> wrote s s' (g x)),
              s_depth s = 0 ->
              (do s1 <- each f l (start s tag); end_compound seal Rng fill m s1) = Ok s' ->
              closed s s' (tag ++ concat (map g l))).
    { intros s s' tag f g l HF D H. destruct (each f l (start s tag)) as [s1|e|] eqn:E; cbn [obind] in H; try discriminate.
      pose proof (each_wrote f g l HF (s_depth s) (start s tag) s1 eq_refl E) as W.
      destruct (compound _ _ _ _ _ W H) as (s2 & D2 & W2 & F).
      rewrite <- (app_nil_r (tag ++ _)). eapply wrote_closed; [exact W2|]. apply flush_out; [congruence|exact F]. }
    assert (ELS : forall l, fold_right (fun x P => shaped x /\ P) True l ->
              forall x, In x l -> ser_in x).
    { intros l SL x Hx. apply fold_and in SL. rewrite Forall_forall in SL.
      apply (serialize_in (vsize x)); [lia|apply SL; exact Hx]. }
    intros s s' D H. destruct v; cbn [serialize enc shaped vsize ends_in_unit] in *.
    - exact (write_out _ _ _ D H).
    - exact (write_out _ _ _ D H).
    - exact (write_out _ _ _ D H).
    - destruct (each (fun b t => write_bytes seal Rng fill m t [b]) s0 (start s (len_tag (length s0)))) as [s1|e|] eqn:E; cbn [obind] in H; try discriminate.
      assert (W : wrote (start s (len_tag (length s0))) s1 (concat (map (fun b => [b]) s0))).
      { apply (each_wrote (fun b t => write_bytes seal Rng fill m t [b]) (fun b => [b]) s0) with (d := s_depth s); [|reflexivity|exact E].
        intros x _ d0 t t' Dt Ht. exact (write_in _ _ d0 _ Dt Ht). }
      rewrite flat_bytes in W.
      destruct (compound _ _ _ _ _ W H) as (s2 & D2 & W2 & F).
      rewrite <- (app_nil_r (len_tag (length s0) ++ s0)). eapply wrote_closed; [exact W2|]. apply flush_out; [congruence|exact F].
    - rewrite <- (app_nil_r (len_tag (length s0) ++ s0)). eapply wrote_closed; [|apply flush_out in H; [exact H|exact D]].
      eapply wrote_trans; apply wrote_extend.
    - exact (write_out _ _ _ D H).
    - change (1%N :: enc v) with ([1%N] ++ enc v). pose proof (IH v ltac:(lia) SH _ _ (D : s_depth (extend s [1%N]) = 0) H) as X.
      destruct (ends_in_unit v).
      + destruct X as [X Y]. split; [eapply wrote_trans; [apply wrote_extend|exact X]|exact Y].
      + eapply wrote_closed; [apply wrote_extend|exact X].
    - injection H as <-. split; [apply wrote_refl|reflexivity].
    - exact (IH v ltac:(lia) SH _ _ D H).
    - apply (COMP s s' _ (serialize seal Rng fill m) enc l); [|exact D|exact H]. exact (ELS l SH).
    - apply (COMP s s' [] (serialize seal Rng fill m) enc l); [|exact D|exact H]. exact (ELS l SH).
    - destruct (each _ l (start s (len_tag (length l)))) as [s1|e|] eqn:E; cbn [obind] in H; try discriminate.
      assert (W : wrote (start s (len_tag (length l))) s1 (concat (map (fun kv => enc (fst kv) ++ enc (snd kv)) l))).
      { eapply each_wrote with (d := s_depth s); [|reflexivity|exact E]. cbv beta.
        intros kv Hx d0 t t' Dt Ht.
        apply (fold_and (fun kv => shaped (fst kv) /\ shaped (snd kv))) in SH. rewrite Forall_forall in SH.
        destruct (SH kv Hx) as [S1 S2].
        destruct (serialize seal Rng fill m (fst kv) t) as [t1|e|] eqn:T1; cbn [obind] in Ht; try discriminate.
        assert (W1 : wrote t t1 (enc (fst kv))) by (apply (serialize_in _ (fst kv) (le_n _) S1 d0 t t1 Dt T1)).
        eapply wrote_trans; [exact W1|].
        apply (serialize_in _ (snd kv) (le_n _) S2 d0); [destruct W1 as [W1 _]; congruence|exact Ht]. }
      destruct (compound _ _ _ _ _ W H) as (s2 & D2 & W2 & F).
      rewrite <- (app_nil_r (len_tag (length l) ++ _)). eapply wrote_closed; [exact W2|]. apply flush_out; [congruence|exact F].
    - destruct v; try destruct SH; cbn [enc vsize] in *.
      + rewrite app_nil_r. exact (write_out _ _ _ D H).
      + pose proof (IH v ltac:(lia) SH _ _ (D : s_depth (extend s (variant_tag i)) = 0) H) as X.
        destruct (ends_in_unit v).
        * destruct X as [X Y]. split; [eapply wrote_trans; [apply wrote_extend|exact X]|exact Y].
        * eapply wrote_closed; [apply wrote_extend|exact X].
      + apply (COMP s s' _ (serialize seal Rng fill m) enc l); [|exact D|exact H]. exact (ELS l SH).
  Qed.

  (** A value whose top is a unit below newtypes only writes nothing and needs nothing. *)
  Lemma settled_enc : forall n v, vsize v <= n -> ends_in_unit v = true -> dangling v = false -> enc v = [].
  Proof.
    clear. induction n as [|n IH]; intros v SZ E D; [pose proof (vsize_pos v); lia|].
    destruct v; cbn [ends_in_unit dangling enc vsize] in *; try discriminate; try congruence.
    - apply (IH v); [lia|assumption|assumption].
  Qed.

  (** * Reading *)
  (** [ready s bs]: the deserializer [s] is about to hand out the bytes [bs]. *)
  Definition ready (s : des) (bs : bytes) : Prop :=
    exists bl cs junk, dumped bl cs /\ d_file s = concat cs ++ junk /\ bs = d_block s ++ concat bl.

  Hypothesis SEAL : aead_ok seal open.
  Hypothesis FILL : fill_ok fill.
  Hypothesis HOLDS : holds mem block_size.

  Lemma dumped_len : forall bl cs, dumped bl cs ->
    length (concat cs) = length cs * (36 + block_size) /\ length (concat bl) = length cs * block_size.
  Proof.
    intros bl cs H. induction H as [|b c bl cs [L D] H [IH1 IH2]]; [split; reflexivity|].
    rewrite <- L in HOLDS.
    destruct (c35_mini_dump_parse seal open Rng fill mem SEAL FILL m m b c [] eq_refl eq_refl HOLDS D) as [LC _].
    cbn [concat length]. rewrite !app_length, LC, IH1, IH2, L. lia.
  Qed.
  Lemma file_read_block : forall b c rest, length b = block_size -> mini_dump seal Rng fill m b = Ok c ->
    file_read open Rng mem m (c ++ rest) = Ok (Some b, rest).
  Proof.
    intros b c rest L D. assert (HO := HOLDS). rewrite <- L in HO.
    destruct (c35_mini_dump_parse seal open Rng fill mem SEAL FILL m m b c rest eq_refl eq_refl HO D) as [_ P].
    unfold file_read. rewrite P. cbn [obind].
    destruct b as [|b0 b']; [pose proof block_size_pos; cbn in L; lia|].
    unfold block_new. rewrite L, Nat.leb_refl, resize_full by exact L. reflexivity.
  Qed.
  Lemma load_bytes_ready : forall bl cs, dumped bl cs -> forall fuel n s junk bs,
    length cs < fuel -> d_file s = concat cs ++ junk -> bs = d_block s ++ concat bl -> n <= length bs ->
    exists s', load_bytes open Rng mem m fuel n s = Ok (true, s') /\ ready s' bs /\ n <= length (d_block s').
  Proof.
    intros bl cs H. induction H as [|b c bl cs [L D] H IH]; intros fuel n s junk bs LF F B LN;
      (destruct fuel as [|fuel]; [lia|]); cbn [load_bytes];
      destruct (Nat.leb_spec n (length (d_block s))) as [Y|Y].
    - exists s. split; [reflexivity|]. split; [|exact Y]. exists [], [], junk. split; [constructor|]. split; assumption.
    - subst bs. cbn [concat] in LN. rewrite app_nil_r in LN. lia.
    - exists s. split; [reflexivity|]. split; [|exact Y]. exists (b :: bl), (c :: cs), junk.
      split; [constructor; [split; assumption|exact H]|]. split; assumption.
    - rewrite F. cbn [concat]. rewrite <- app_assoc, (file_read_block b c _ L D). cbn [obind].
      cbn [length] in LF. apply (IH fuel n _ junk bs); [lia|reflexivity| |exact LN].
      cbn [d_block]. rewrite B. cbn [concat]. rewrite app_assoc. reflexivity.
  Qed.
  Lemma read_n_ready : forall s bs rest, ready s (bs ++ rest) ->
    exists s', read_n open Rng mem m (length bs) s = DOk (bs, s') /\ ready s' rest.
  Proof.
    intros s bs rest (bl & cs & junk & X & F & B). unfold read_n.
    destruct (dumped_len bl cs X) as [L1 _].
    destruct (load_bytes_ready bl cs X (S (length (d_file s))) (length bs) s junk (bs ++ rest)) as (s1 & E & R & LN).
    - rewrite F, app_length, L1. clear. rewrite Nat.mul_add_distr_l. lia.
    - exact F.
    - exact B.
    - rewrite app_length. lia.
    - rewrite E. cbn [map_io dbind]. destruct R as (bl' & cs' & junk' & X' & F' & B').
      assert (firstn (length bs) (d_block s1) = bs) as ->.
      { transitivity (firstn (length bs) (d_block s1 ++ concat bl')).
        - rewrite firstn_app. replace (length bs - length (d_block s1)) with 0 by lia. rewrite app_nil_r. reflexivity.
        - rewrite <- B'. rewrite firstn_app, Nat.sub_diag, firstn_all, app_nil_r. reflexivity. }
      eexists. split; [reflexivity|]. exists bl', cs', junk'. split; [exact X'|]. cbn [d_file d_block].
      split; [exact F'|].
      transitivity (skipn (length bs) (d_block s1 ++ concat bl')).
      + rewrite <- B', skipn_app, skipn_all, Nat.sub_diag. reflexivity.
      + rewrite skipn_app. replace (length bs - length (d_block s1)) with 0 by lia. reflexivity.
  Qed.
  Lemma read_int_ready : forall w n s rest, (n < 256 ^ N.of_nat w)%N -> ready s (le w n ++ rest) ->
    exists s', read_int open Rng mem m w s = DOk (n, s') /\ ready s' rest.
  Proof.
    intros w n s rest Hn R. destruct (read_n_ready s (le w n) rest R) as (s' & E & R'). rewrite le_len in E.
    exists s'. split; [|exact R']. unfold read_int. rewrite E. cbn [dbind]. rewrite un_le_le by exact Hn. reflexivity.
  Qed.
  Lemma read_len_ready : forall n s rest, (N.of_nat n < 2 ^ 64)%N -> ready s (len_tag n ++ rest) ->
    exists s', read_len open Rng mem m s = DOk (n, s') /\ ready s' rest.
  Proof.
    intros n s rest Hn R. destruct (read_int_ready 8 (N.of_nat n) s rest Hn R) as (s' & E & R').
    exists s'. split; [|exact R']. unfold read_len. rewrite E. cbn [dbind]. rewrite Nat2N.id. reflexivity.
  Qed.
  Lemma read_byte_buf_ready : forall b s rest, (N.of_nat (length b) < 2 ^ 64)%N ->
    ready s (len_tag (length b) ++ b ++ rest) ->
    exists s', read_byte_buf open Rng mem m s = DOk (b, s') /\ ready s' rest.
  Proof.
    intros b s rest Hn R. destruct (read_len_ready _ s _ Hn R) as (s1 & E & R1).
    destruct (read_n_ready s1 b rest R1) as (s2 & E2 & R2).
    exists s2. split; [|exact R2]. unfold read_byte_buf. rewrite E. cbn [dbind]. exact E2.
  Qed.
  Lemma repeat_read_ready : forall {A} (f : des -> de_out (A * des)) (g : A -> bytes) l,
    (forall x, In x l -> forall s rest, ready s (g x ++ rest) -> exists s', f s = DOk (x, s') /\ ready s' rest) ->
    forall s rest, ready s (concat (map g l) ++ rest) ->
    exists s', repeat_read f (length l) s = DOk (l, s') /\ ready s' rest.
  Proof.
    intros A f g. induction l as [|x l IH]; intros H s rest R.
    - exists s. split; [reflexivity|exact R].
    - cbn [map concat] in R. rewrite <- app_assoc in R.
      destruct (H x (or_introl eq_refl) s _ R) as (s1 & E1 & R1).
      destruct (IH (fun y Hy => H y (or_intror Hy)) s1 rest R1) as (s2 & E2 & R2).
      exists s2. split; [|exact R2]. cbn [length repeat_read]. rewrite E1. cbn [dbind]. rewrite E2. reflexivity.
  Qed.

  Definition de_ok (v : val) : Prop := forall t s rest, has_type utf8 t v -> ready s (enc v ++ rest) ->
    exists s', deserialize open Rng mem utf8 m t s = DOk (v, s') /\ ready s' rest.

  Lemma each_read_ready : forall ts l, Forall2 (has_type utf8) ts l -> (forall x, In x l -> de_ok x) ->
    forall s rest, ready s (concat (map enc l) ++ rest) ->
    exists s', each_read (map (deserialize open Rng mem utf8 m) ts) s = DOk (l, s') /\ ready s' rest.
  Proof.
    intros ts l F. induction F as [|t x ts l HT F IH]; intros H s rest R.
    - exists s. split; [reflexivity|exact R].
    - cbn [map concat] in R. rewrite <- app_assoc in R.
      destruct (H x (or_introl eq_refl) t s _ HT R) as (s1 & E1 & R1).
      destruct (IH (fun y Hy => H y (or_intror Hy)) s1 rest R1) as (s2 & E2 & R2).
      exists s2. split; [|exact R2]. cbn [map each_read]. rewrite E1. cbn [dbind]. rewrite E2. reflexivity.
  Qed.

  Lemma deserialize_ready : forall n v, vsize v <= n -> de_ok v.
  Proof.
    induction n as [|n IH]; intros v SZ t s rest HT R; [pose proof (vsize_pos v); lia|].
    assert (ELS : forall l, fold_right (fun x n => vsize x + n) 0 l <= n -> forall x, In x l -> de_ok x).
    { intros l SL x Hx. apply IH. pose proof (vsize_in l x Hx). lia. }
    destruct HT; cbn [enc vsize deserialize] in *.
    - destruct (read_int_ready 1 (if b then 1 else 0)%N s rest) as (s' & E & R').
      { destruct b; reflexivity. } { destruct b; exact R. }
      exists s'. split; [|exact R']. rewrite E. cbn [dbind]. destruct b; reflexivity.
    - destruct (read_int_ready w n0 s rest H R) as (s' & E & R').
      exists s'. split; [|exact R']. rewrite E. reflexivity.
    - assert ((n0 < 256 ^ N.of_nat 4)%N) by (change (256 ^ N.of_nat 4)%N with 4294967296%N; clear - H; lia).
      destruct (read_int_ready 4 n0 s rest H0 R) as (s' & E & R').
      exists s'. split; [|exact R']. rewrite E. cbn [dbind].
      assert (char_ok n0 = true) as ->; [|reflexivity]. unfold char_ok. clear - H.
      destruct H as [H|[H1 H2]]; [apply N.ltb_lt in H; rewrite H; reflexivity|].
      apply N.leb_le in H1. apply N.ltb_lt in H2. rewrite H1, H2. apply orb_true_r.
    - rewrite <- app_assoc in R. destruct (read_byte_buf_ready s0 s rest H0 R) as (s' & E & R').
      exists s'. split; [|exact R']. rewrite E. cbn [dbind]. rewrite H. reflexivity.
    - rewrite <- app_assoc in R. destruct (read_byte_buf_ready s0 s rest H R) as (s' & E & R').
      exists s'. split; [|exact R']. rewrite E. reflexivity.
    - destruct (read_int_ready 1 0%N s rest) as (s' & E & R'); [reflexivity|exact R|].
      exists s'. split; [|exact R']. rewrite E. reflexivity.
    - destruct (read_int_ready 1 1%N s (enc v ++ rest)) as (s1 & E & R1); [reflexivity|exact R|].
      destruct (IH v ltac:(lia) t s1 rest HT R1) as (s2 & E2 & R2).
      exists s2. split; [|exact R2]. rewrite E. cbn [dbind N.eqb Pos.eqb]. rewrite E2. reflexivity.
    - exists s. split; [reflexivity|exact R].
    - destruct (IH v ltac:(lia) t s rest HT R) as (s2 & E2 & R2).
      exists s2. split; [|exact R2]. rewrite E2. reflexivity.
    - rewrite <- app_assoc in R. destruct (read_len_ready _ s _ H R) as (s1 & E & R1).
      destruct (repeat_read_ready (deserialize open Rng mem utf8 m t) enc l) with (s := s1) (rest := rest) as (s2 & E2 & R2).
      { intros x Hx s0 r0 R0. rewrite Forall_forall in H0. apply (ELS l ltac:(lia) x Hx t s0 r0 (H0 x Hx) R0). }
      { exact R1. }
      exists s2. split; [|exact R2]. rewrite E. cbn [dbind]. rewrite E2. reflexivity.
    - destruct (each_read_ready ts l H (ELS l ltac:(lia)) s rest R) as (s2 & E2 & R2).
      exists s2. split; [|exact R2]. rewrite E2. reflexivity.
    - rewrite <- app_assoc in R. destruct (read_len_ready _ s _ H R) as (s1 & E & R1).
      edestruct (repeat_read_ready (fun t1 => dd (a, t2) <- deserialize open Rng mem utf8 m t t1;
                                             dd (b, t3) <- deserialize open Rng mem utf8 m u t2; DOk ((a, b), t3))
                   (fun kv => enc (fst kv) ++ enc (snd kv)) l) with (s := s1) (rest := rest) as (s2 & E2 & R2).
      { intros kv Hx s0 r0 R0. rewrite Forall_forall in H0. destruct (H0 kv Hx) as [T1 T2].
        pose proof (vsize_in_map l kv Hx). pose proof (vsize_pos (fst kv)). pose proof (vsize_pos (snd kv)).
        rewrite <- app_assoc in R0.
        destruct (IH (fst kv) ltac:(lia) t s0 _ T1 R0) as (t1 & F1 & Q1).
        destruct (IH (snd kv) ltac:(lia) u t1 _ T2 Q1) as (t2 & F2 & Q2).
        exists t2. split; [|exact Q2]. rewrite F1. cbn [dbind]. rewrite F2. cbn [dbind]. destruct kv; reflexivity. }
      { exact R1. }
      exists s2. split; [|exact R2]. rewrite E. cbn [dbind]. rewrite E2. reflexivity.
    - rewrite app_nil_r in R. unfold variant_tag in R.
      destruct (read_int_ready 4 (N.of_nat i) s rest H R) as (s1 & E & R1).
      exists s1. split; [|exact R1]. rewrite E. cbn [dbind]. rewrite Nat2N.id.
      erewrite map_nth_error by exact H0. reflexivity.
    - unfold variant_tag in R. rewrite <- app_assoc in R.
      destruct (read_int_ready 4 (N.of_nat i) s _ H R) as (s1 & E & R1).
      destruct (IH v ltac:(lia) t s1 rest HT R1) as (s2 & E2 & R2).
      exists s2. split; [|exact R2]. rewrite E. cbn [dbind]. rewrite Nat2N.id.
      erewrite map_nth_error by exact H0. cbv beta iota. rewrite E2. reflexivity.
    - unfold variant_tag in R. rewrite <- app_assoc in R.
      destruct (read_int_ready 4 (N.of_nat i) s _ H R) as (s1 & E & R1).
      destruct (each_read_ready us l H1 (ELS l ltac:(lia)) s1 rest R1) as (s2 & E2 & R2).
      exists s2. split; [|exact R2]. rewrite E. cbn [dbind]. rewrite Nat2N.id.
      erewrite map_nth_error by exact H0. cbv beta iota. rewrite E2. reflexivity.
  Qed.
End Fs.
