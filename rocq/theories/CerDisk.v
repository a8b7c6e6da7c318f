(** Files and recovery (C42), transcripts (C44), clients (C46). *)
From Coq Require Import List NArith Arith Bool Lia.
From Verif Require Import CerModel CerSpec CerQueue CerInv.
Import ListNotations.

Lemma read_all_ext : forall (A : Type) (f g : nat -> option A) n i,
  (forall j, f j = g j) -> read_all f i n = read_all g i n.
Proof.
  induction n as [|n IH]; intros i H; cbn [read_all]; [reflexivity|]. rewrite H.
  destruct (g i); [|reflexivity]. now rewrite (IH (S i) H).
Qed.
Lemma read_all_list : forall (A : Type) (f : nat -> option A) l i,
  (forall j x, nth_error l j = Some x -> f (i + j) = Some x) -> read_all f i (length l) = Some l.
Proof.
  induction l as [|a l IH]; intros i H; cbn [read_all length]; [reflexivity|].
  pose proof (H 0 a eq_refl) as H0. rewrite Nat.add_0_r in H0. rewrite H0.
  rewrite IH; [reflexivity|]. intros j x N. replace (S i + j) with (i + S j) by lia. now apply H.
Qed.
Lemma read_all_length : forall (A : Type) (f : nat -> option A) n i l, read_all f i n = Some l -> length l = n.
Proof.
  induction n as [|n IH]; intros i l H; cbn [read_all] in H; [now injection H as <-|].
  destruct (f i); [|discriminate]. destruct (read_all f (S i) n) as [l'|] eqn:E; [|discriminate].
  injection H as <-. cbn. f_equal. eapply IH, E.
Qed.

Lemma fname_eqb_eq : forall a b, fname_eqb a b = true <-> a = b.
Proof.
  intros [i r|i r|i r| | |r] [j s|j s|j s| | |s]; cbn; try (split; congruence);
    rewrite ?andb_true_iff, ?Nat.eqb_eq; (split; [intuition congruence|]); intros E; injection E; auto.
Qed.

Section Disk.
Context {St Ch Pf : Type}.
Notation disk := (disk St Ch Pf).
Notation sclp := (sclp St Ch Pf).
Notation write := (fname * fcontent St Ch Pf)%type.

Lemma dwrite_same : forall (d : disk) f c, dwrite d (f, c) f = Some c.
Proof. intros d f c. unfold dwrite. cbn [fst snd]. now rewrite (proj2 (fname_eqb_eq f f) eq_refl). Qed.
Lemma dwrite_other : forall (d : disk) f c g, g <> f -> dwrite d (f, c) g = d g.
Proof.
  intros d f c g N. unfold dwrite. cbn [fst snd]. destruct (fname_eqb g f) eqn:E; [|reflexivity].
  apply fname_eqb_eq in E. contradiction.
Qed.
Lemma writes_other : forall (ws : list write) (d : disk) g, ~ In g (map fst ws) -> fold_left dwrite ws d g = d g.
Proof.
  induction ws as [|[f c] ws IH]; intros d g N; cbn [fold_left map In fst] in *; [reflexivity|].
  rewrite IH by tauto. apply dwrite_other. intros ->. tauto.
Qed.
Lemma fname_dec : forall a b : fname, {a = b} + {a <> b}.
Proof. decide equality; apply Nat.eq_dec. Qed.
Lemma writes_same : forall (ws : list write) (d : disk) g c,
  In (g, c) ws -> (forall c', In (g, c') ws -> c' = c) -> fold_left dwrite ws d g = Some c.
Proof.
  induction ws as [|[f c0] ws IH]; intros d g c I U; cbn [fold_left In] in *; [contradiction|].
  destruct (in_dec fname_dec g (map fst ws)) as [Y|Y].
  - apply in_map_iff in Y. destruct Y as ([g' c'] & E & Y). cbn in E. subst g'.
    rewrite (U c' (or_intror Y)) in Y. apply IH; auto.
  - rewrite writes_other by exact Y. destruct I as [I|I].
    + injection I as -> ->. apply dwrite_same.
    + exfalso. apply Y. apply (in_map fst) in I. exact I.
Qed.

Lemma in_state_writes : forall sts chs i r f c, In (f, c) (@state_writes St Ch Pf i r sts chs) ->
  exists j, (exists s, nth_error sts j = Some s /\ f = FNState (i + j) r /\ c = FState s)
         \/ (exists h, nth_error chs j = Some h /\ f = FNChal (i + j) r /\ c = FChal h).
Proof.
  induction sts as [|s sts IH]; intros [|h chs] i r f c I; cbn [state_writes In] in I; try contradiction.
  destruct I as [I|[I|I]].
  - injection I as <- <-. exists 0. left. exists s. rewrite Nat.add_0_r. auto.
  - injection I as <- <-. exists 0. right. exists h. rewrite Nat.add_0_r. auto.
  - destruct (IH _ _ _ _ _ I) as (j & X). exists (S j). replace (i + S j) with (S i + j) by lia. exact X.
Qed.
Lemma state_writes_in : forall sts chs i r, length chs = length sts ->
  (forall j s, nth_error sts j = Some s -> In (FNState (i + j) r, FState s) (@state_writes St Ch Pf i r sts chs))
  /\ (forall j h, nth_error chs j = Some h -> In (FNChal (i + j) r, FChal h) (@state_writes St Ch Pf i r sts chs)).
Proof.
  induction sts as [|s sts IH]; intros [|h chs] i r L; try discriminate.
  - split; intros [|j] x; discriminate.
  - destruct (IH chs (S i) r ltac:(cbn in L; lia)) as [A B].
    split; intros [|j] x N; cbn [nth_error state_writes In] in *.
    + injection N as <-. rewrite Nat.add_0_r. auto.
    + right; right. replace (i + S j) with (S i + j) by lia. auto.
    + injection N as <-. rewrite Nat.add_0_r. auto.
    + right; right. replace (i + S j) with (S i + j) by lia. auto.
Qed.
Lemma in_proof_writes : forall pfs i r f c, In (f, c) (@proof_writes St Ch Pf i r pfs) ->
  exists j p, nth_error pfs j = Some p /\ f = FNProof (i + j) r /\ c = FProof p.
Proof.
  induction pfs as [|p pfs IH]; intros i r f c I; cbn [proof_writes In] in I; [contradiction|].
  destruct I as [I|I].
  - injection I as <- <-. exists 0, p. rewrite Nat.add_0_r. auto.
  - destruct (IH _ _ _ _ I) as (j & q & X). exists (S j), q. replace (i + S j) with (S i + j) by lia. exact X.
Qed.
Lemma proof_writes_in : forall pfs i r j p, nth_error pfs j = Some p ->
  In (FNProof (i + j) r, FProof p) (@proof_writes St Ch Pf i r pfs).
Proof.
  induction pfs as [|q pfs IH]; intros i r [|j] p N; try discriminate; cbn [nth_error proof_writes In] in *.
  - injection N as <-. rewrite Nat.add_0_r. auto.
  - right. replace (i + S j) with (S i + j) by lia. auto.
Qed.

(** [recover] only looks at the files of the current round. *)
Lemma recover_ext : forall (d d' : disk) r,
  d FNRound = Some (FRound r) -> d' FNRound = d FNRound -> d' FNNames = d FNNames ->
  (forall i, d' (FNState i r) = d (FNState i r)) -> (forall i, d' (FNChal i r) = d (FNChal i r)) ->
  (forall i, d' (FNProof i r) = d (FNProof i r)) -> d' (FNReg r) = d (FNReg r) ->
  recover d' = recover d.
Proof.
  intros d d' r R E1 E2 E3 E4 E5 E6. unfold recover. rewrite E1, R, E2.
  destruct (d FNNames) as [[]|]; try reflexivity. rewrite E6.
  rewrite (read_all_ext _ _ (fun i => match d (FNState i r) with Some (FState s) => Some s | _ => None end))
    by (intros j; now rewrite E3).
  rewrite (read_all_ext _ (fun i => match d' (FNChal i r) with Some (FChal s) => Some s | _ => None end)
             (fun i => match d (FNChal i r) with Some (FChal s) => Some s | _ => None end))
    by (intros j; now rewrite E4).
  rewrite (read_all_ext _ (fun i => match d' (FNProof i r) with Some (FProof s) => Some s | _ => None end)
             (fun i => match d (FNProof i r) with Some (FProof s) => Some s | _ => None end))
    by (intros j; now rewrite E5).
  reflexivity.
Qed.

Lemma recover_some : forall (d : disk) s r, recover d = Some (s, r) ->
  d FNRound = Some (FRound (c_round s)) /\ d FNNames = Some (FNames (length (c_states s)))
  /\ d (FNReg (c_round s)) = Some (FReg r).
Proof.
  intros d s r H. unfold recover in H.
  destruct (d FNRound) as [[]|]; try discriminate. destruct (d FNNames) as [[]|]; try discriminate.
  destruct (read_all _ 0 n0) as [sts|] eqn:A; [|discriminate].
  destruct (read_all (fun i => match d (FNChal i n) with Some (FChal c) => Some c | _ => None end) 0 n0) as [chs|]; [|discriminate].
  destruct (match n with 0 => _ | S _ => _ end) as [p|]; [|discriminate].
  destruct (d (FNReg n)) as [[]|] eqn:G; try discriminate. injection H as <- <-. cbn.
  split; [reflexivity|]. split; [now rewrite (read_all_length _ _ _ _ _ A)|exact G].
Qed.

(** The files written before [round_number] all belong to the new round. *)
Definition before_round (s : sclp) : list write :=
  state_writes 0 (c_round s) (c_states s) (c_chals s)
  ++ match c_round s, c_proof s with S _, Some pfs => proof_writes 0 (c_round s) pfs | _, _ => [] end.
Lemma save_writes_eq : forall s : sclp, save_writes s = before_round s ++ [(FNRound, FRound (c_round s))].
Proof. intros s. unfold save_writes, before_round. now rewrite <- app_assoc. Qed.
Lemma contribution_writes_eq : forall (s : sclp) r, contribution_writes s r
  = before_round s ++ [(FNRound, FRound (c_round s)); (FNReg (c_round s), FReg r)].
Proof. intros s r. unfold contribution_writes. now rewrite save_writes_eq, <- app_assoc. Qed.
Lemma before_round_names : forall (s : sclp) f, In f (map fst (before_round s)) ->
  exists i, f = FNState i (c_round s) \/ f = FNChal i (c_round s) \/ f = FNProof i (c_round s).
Proof.
  intros s f I. apply in_map_iff in I. destruct I as ([f' c] & E & I). cbn in E. subst f'.
  unfold before_round in I. apply in_app_iff in I. destruct I as [I|I].
  - destruct (in_state_writes _ _ _ _ _ _ I) as (j & [(x & _ & -> & _)|(x & _ & -> & _)]); exists j; auto.
  - destruct (c_round s) as [|r]; [contradiction|]. destruct (c_proof s) as [pfs|]; [|contradiction].
    destruct (in_proof_writes _ _ _ _ _ I) as (j & x & _ & -> & _). exists j; auto.
Qed.

Lemma in_firstn : forall (A : Type) k (l : list A) x, In x (firstn k l) -> In x l.
Proof. intros A k l x I. rewrite <- (firstn_skipn k l). apply in_app_iff. auto. Qed.

(** A crash before [round_number] is rewritten does not touch anything of other rounds. *)
Lemma crash_before_files : forall (d : disk) (s : sclp) reg k torn g,
  k < length (before_round s) \/ (k = length (before_round s) /\ torn = false) ->
  (forall i, g <> FNState i (c_round s) /\ g <> FNChal i (c_round s) /\ g <> FNProof i (c_round s)) ->
  crash d (contribution_writes s reg) k torn g = d g.
Proof.
  intros d s reg k torn g K G.
  assert (NI : ~ In g (map fst (before_round s))).
  { intros I. destruct (before_round_names _ _ I) as (i & C). destruct (G i) as (? & ? & ?). tauto. }
  assert (F : fold_left dwrite (firstn k (contribution_writes s reg)) d g = d g).
  { rewrite contribution_writes_eq, firstn_app. replace (k - length (before_round s)) with 0 by lia.
    cbn [firstn]. rewrite app_nil_r. apply writes_other. intros I. apply NI.
    apply in_map_iff in I. destruct I as (w & <- & I). apply in_map. eapply in_firstn, I. }
  unfold crash. destruct torn; [|exact F].
  destruct (nth_error (contribution_writes s reg) k) as [[f c]|] eqn:N; [|exact F].
  rewrite dwrite_other; [exact F|]. intros ->. apply NI.
  destruct K as [K|[_ K]]; [|discriminate].
  rewrite contribution_writes_eq, nth_error_app1 in N by exact K.
  apply nth_error_In in N. apply (in_map fst) in N. exact N.
Qed.

Theorem crash_before : forall (d : disk) s reg s' reg' k torn,
  recover d = Some (s, reg) -> c_round s' = S (c_round s) ->
  k < length (before_round s') \/ (k = length (before_round s') /\ torn = false) ->
  recover (crash d (contribution_writes s' reg') k torn) = Some (s, reg).
Proof.
  intros d s reg s' reg' k torn H R K. rewrite <- H.
  destruct (recover_some _ _ _ H) as (A & _ & _).
  apply (recover_ext _ _ (c_round s) A);
    intros; apply crash_before_files; auto; intros i'; repeat split; intros C; try discriminate; injection C; lia.
Qed.

Lemma before_round_read : forall (d : disk) (s : sclp) pfs, c_proof s = Some pfs ->
  length (c_chals s) = length (c_states s) -> length pfs = length (c_states s) ->
  let d' := fold_left dwrite (before_round s) d in
  read_all (fun i => match d' (FNState i (c_round s)) with Some (FState s) => Some s | _ => None end) 0
    (length (c_states s)) = Some (c_states s)
  /\ read_all (fun i => match d' (FNChal i (c_round s)) with Some (FChal s) => Some s | _ => None end) 0
    (length (c_states s)) = Some (c_chals s)
  /\ (c_round s <> 0 ->
      read_all (fun i => match d' (FNProof i (c_round s)) with Some (FProof s) => Some s | _ => None end) 0
    (length (c_states s)) = Some pfs).
Proof.
  intros d s pfs P L1 L2 d'.
  assert (U : forall g c, In (g, c) (before_round s) ->
     match g with
     | FNState i r => exists x, nth_error (c_states s) i = Some x /\ c = FState x
     | FNChal i r => exists x, nth_error (c_chals s) i = Some x /\ c = FChal x
     | FNProof i r => exists x, nth_error pfs i = Some x /\ c = FProof x
     | _ => False
     end).
  { intros g c I. unfold before_round in I. rewrite P in I. apply in_app_iff in I. destruct I as [I|I].
    - destruct (in_state_writes _ _ _ _ _ _ I) as (j & [(x & N & -> & ->)|(x & N & -> & ->)]); exists x; auto.
    - destruct (c_round s); [contradiction|].
      destruct (in_proof_writes _ _ _ _ _ I) as (j & x & N & -> & ->). exists x; auto. }
  destruct (state_writes_in (c_states s) (c_chals s) 0 (c_round s) L1) as [IS IC].
  split; [|split].
  - apply read_all_list. intros j x N. cbn [Nat.add]. unfold d'.
    rewrite (writes_same _ d (FNState j (c_round s)) (FState x)); [reflexivity| |].
    + unfold before_round. apply in_app_iff. left. exact (IS j x N).
    + intros c' I. destruct (U _ _ I) as (y & N' & ->). congruence.
  - rewrite <- L1. apply read_all_list. intros j x N. cbn [Nat.add]. unfold d'.
    rewrite (writes_same _ d (FNChal j (c_round s)) (FChal x)); [reflexivity| |].
    + unfold before_round. apply in_app_iff. left. exact (IC j x N).
    + intros c' I. destruct (U _ _ I) as (y & N' & ->). congruence.
  - intros R. rewrite <- L2. apply read_all_list. intros j x N. cbn [Nat.add]. unfold d'.
    rewrite (writes_same _ d (FNProof j (c_round s)) (FProof x)); [reflexivity| |].
    + unfold before_round. apply in_app_iff. right. rewrite P. destruct (c_round s); [congruence|].
      exact (proof_writes_in pfs 0 _ j x N).
    + intros c' I. destruct (U _ _ I) as (y & N' & ->). congruence.
Qed.

(** What [recover] sees once everything before [round_number] and [round_number] itself
    are written, depending on the registry file. *)
Lemma recover_after : forall (d d' : disk) s reg s' r',
  recover d = Some (s, reg) -> next_round s s' ->
  (forall g, g <> FNRound -> g <> FNReg (c_round s') -> d' g = fold_left dwrite (before_round s') d g) ->
  d' FNRound = Some (FRound (c_round s')) -> d' (FNReg (c_round s')) = r' ->
  recover d' = match r' with Some (FReg x) => Some (s', x) | _ => None end.
Proof.
  intros d d' s reg s' r' H (R & L1 & L2 & pfs & P & L3) E1 E2 E3.
  destruct (recover_some _ _ _ H) as (_ & N & _).
  destruct (before_round_read d s' pfs P) as (A & B & C); [congruence|congruence|].
  unfold recover. rewrite E2. rewrite (E1 FNNames) by discriminate.
  rewrite writes_other, N.
  2: { intros I. destruct (before_round_names _ _ I) as (i & [X|[X|X]]); discriminate. }
  rewrite <- L1.
  rewrite (read_all_ext _ _ (fun i => match fold_left dwrite (before_round s') d (FNState i (c_round s')) with Some (FState s) => Some s | _ => None end))
    by (intros j; rewrite E1 by discriminate; reflexivity).
  rewrite A.
  rewrite (read_all_ext _ (fun i => match d' (FNChal i (c_round s')) with Some (FChal s) => Some s | _ => None end)
    (fun i => match fold_left dwrite (before_round s') d (FNChal i (c_round s')) with Some (FChal s) => Some s | _ => None end))
    by (intros j; rewrite E1 by discriminate; reflexivity).
  rewrite B. rewrite E3.
  rewrite (read_all_ext _ (fun i => match d' (FNProof i (c_round s')) with Some (FProof s) => Some s | _ => None end)
    (fun i => match fold_left dwrite (before_round s') d (FNProof i (c_round s')) with Some (FProof s) => Some s | _ => None end))
    by (intros j; rewrite E1 by discriminate; reflexivity).
  rewrite C by lia. cbn [option_map]. rewrite R.
  destruct r' as [[]|]; try reflexivity. f_equal. f_equal.
  destruct s' as [a b c e]. cbn in *. congruence.
Qed.

Theorem crash_after : forall (d : disk) s reg s' reg',
  recover d = Some (s, reg) -> next_round s s' ->
  recover (fold_left dwrite (contribution_writes s' reg') d) = Some (s', reg').
Proof.
  intros d s reg s' reg' H N.
  apply (recover_after d _ s reg s' (Some (FReg reg')) H N).
  - intros g G1 G2. rewrite contribution_writes_eq, fold_left_app. cbn [fold_left].
    rewrite !dwrite_other; auto.
  - rewrite contribution_writes_eq, fold_left_app. cbn [fold_left].
    rewrite dwrite_other by discriminate. apply dwrite_same.
  - rewrite contribution_writes_eq, fold_left_app. cbn [fold_left]. apply dwrite_same.
Qed.

(** In the remaining window recovery fails. *)
Theorem crash_window : forall (d : disk) s reg s' reg' k torn,
  recover d = Some (s, reg) -> next_round s s' -> d (FNReg (c_round s')) = None ->
  (k = length (before_round s') /\ torn = true) \/ k = S (length (before_round s')) ->
  recover (crash d (contribution_writes s' reg') k torn) = None.
Proof.
  intros d s reg s' reg' k torn H N G K.
  assert (W : forall x, ~ In (FNReg x) (map fst (before_round s'))).
  { intros x I. destruct (before_round_names _ _ I) as (i & [X|[X|X]]); discriminate. }
  destruct K as [(-> & ->)| ->].
  - unfold recover, crash. rewrite contribution_writes_eq, nth_error_app2, Nat.sub_diag by lia. cbn [nth_error].
    now rewrite dwrite_same.
  - unfold crash. rewrite contribution_writes_eq.
    assert (F : firstn (S (length (before_round s')))
       (before_round s' ++ [(FNRound, FRound (c_round s')); (FNReg (c_round s'), FReg reg')])
       = before_round s' ++ [(FNRound, FRound (c_round s'))]).
    { rewrite firstn_app. rewrite firstn_all2 by lia. replace (S (length (before_round s')) - length (before_round s')) with 1 by lia. reflexivity. }
    rewrite F, nth_error_app2 by lia. replace (S (length (before_round s')) - length (before_round s')) with 1 by lia.
    cbn [nth_error]. destruct torn.
    + apply (recover_after d _ s reg s' (Some FTorn) H N).
      * intros g G1 G2. rewrite dwrite_other by auto. rewrite fold_left_app. cbn [fold_left]. now rewrite dwrite_other.
      * rewrite dwrite_other by discriminate. rewrite fold_left_app. cbn [fold_left]. apply dwrite_same.
      * apply dwrite_same.
    + apply (recover_after d _ s reg s' None H N).
      * intros g G1 G2. rewrite fold_left_app. cbn [fold_left]. now rewrite dwrite_other.
      * rewrite fold_left_app. cbn [fold_left]. apply dwrite_same.
      * rewrite fold_left_app. cbn [fold_left]. rewrite dwrite_other by discriminate. rewrite writes_other; auto.
Qed.

(** Histories of completed contributions. *)
Definition after_history (d : disk) (hist : list (sclp * registry)) : disk :=
  fold_left (fun d e => fold_left dwrite (contribution_writes (fst e) (snd e)) d) hist d.

Lemma contribution_reg : forall (d : disk) (s : sclp) reg x, x <> c_round s ->
  fold_left dwrite (contribution_writes s reg) d (FNReg x) = d (FNReg x).
Proof.
  intros d s reg x N. rewrite contribution_writes_eq, fold_left_app. cbn [fold_left].
  rewrite !dwrite_other by congruence. apply writes_other.
  intros I. destruct (before_round_names _ _ I) as (i & [X|[X|X]]); discriminate.
Qed.

Lemma history_recover : forall hist (d : disk) s reg, recover d = Some (s, reg) ->
  (forall x, c_round s < x -> d (FNReg x) = None) -> chain s hist ->
  recover (after_history d hist) = Some (last_round s reg hist)
  /\ (forall x, c_round (fst (last_round s reg hist)) < x -> after_history d hist (FNReg x) = None).
Proof.
  induction hist as [|[s1 r1] hist IH]; intros d s reg H G C; cbn [after_history fold_left].
  - split; [exact H|exact G].
  - cbn [chain] in C. destruct C as [C1 C2]. pose proof C1 as (R & _).
    destruct (IH (fold_left dwrite (contribution_writes s1 r1) d) s1 r1) as [A B].
    + eapply crash_after; eauto.
    + intros x X. rewrite contribution_reg by lia. apply G. lia.
    + exact C2.
    + unfold last_round in *. cbn [fst snd].
      assert (E : last ((s1, r1) :: hist) (s, reg) = last hist (s1, r1)).
      { destruct hist as [|e hist]; [reflexivity|]. cbn [last]. clear. revert e. induction hist as [|f hist IH]; intros e; [reflexivity|apply (IH f)]. }
      rewrite E. split; [exact A|exact B].
Qed.

Lemma prepare_recover : forall (sts : list St) (chs : list Ch), length chs = length sts ->
  recover (prepare_disk (Pf := Pf) sts chs) = Some (Sclp sts chs None 0, fun _ => None)
  /\ forall x, 0 < x -> prepare_disk (Pf := Pf) sts chs (FNReg x) = None.
Proof.
  intros sts chs L. unfold prepare_disk. set (d := fold_left dwrite _ _).
  destruct (state_writes_in sts chs 0 0 L) as [IS IC].
  assert (D : forall g c, In (g, c) (@state_writes St Ch Pf 0 0 sts chs) -> d g = Some c).
  { intros g c I. unfold d. apply writes_same; [apply in_app_iff; auto|].
    intros c' I'. apply in_app_iff in I'.
    destruct (in_state_writes _ _ _ _ _ _ I) as (j & [(x & N & -> & ->)|(x & N & -> & ->)]);
      (destruct I' as [I'|[I'|[I'|[I'|[]]]]]; [|discriminate|discriminate|discriminate]);
      destruct (in_state_writes _ _ _ _ _ _ I') as (j' & [(x' & N' & E & ->)|(x' & N' & E & ->)]);
      try discriminate; injection E as <-; congruence. }
  assert (W : forall g, (forall i, g <> FNState i 0 /\ g <> FNChal i 0) ->
    ~ In g (map fst (@state_writes St Ch Pf 0 0 sts chs))).
  { intros g G I. apply in_map_iff in I. destruct I as ([f c] & E & I). cbn in E. subst f.
    destruct (in_state_writes _ _ _ _ _ _ I) as (j & [(x & _ & E & _)|(x & _ & E & _)]); now destruct (G j). }
  split.
  - unfold recover.
    assert (E1 : d FNRound = Some (FRound 0)).
    { unfold d. rewrite fold_left_app. cbn [fold_left]. rewrite dwrite_other by discriminate. apply dwrite_same. }
    assert (E2 : d FNNames = Some (FNames (length sts))).
    { unfold d. rewrite fold_left_app. cbn [fold_left]. rewrite !dwrite_other by discriminate. apply dwrite_same. }
    assert (E3 : d (FNReg 0) = Some (FReg (fun _ => None))).
    { unfold d. rewrite fold_left_app. cbn [fold_left]. apply dwrite_same. }
    rewrite E1, E2, E3.
    assert (A : read_all (fun i => match d (FNState i 0) with Some (FState s) => Some s | _ => None end) 0 (length sts) = Some sts).
    { apply read_all_list. intros j x N. now rewrite (D _ _ (IS j x N)). }
    assert (B : read_all (fun i => match d (FNChal i 0) with Some (FChal s) => Some s | _ => None end) 0 (length sts) = Some chs).
    { rewrite <- L. apply read_all_list. intros j x N. now rewrite (D _ _ (IC j x N)). }
    rewrite A, B. reflexivity.
  - intros x X. unfold d. rewrite fold_left_app. cbn [fold_left].
    rewrite !dwrite_other by (try discriminate; intros C; injection C; lia).
    rewrite writes_other; [reflexivity|]. apply W. intros i. split; discriminate.
Qed.
End Disk.

(** ** Transcripts *)
Section Transcript.
Context {St Ch Pf : Type}.
Variable check_state : St -> bool.
Variable challenge : Ch -> St -> St -> Pf -> Ch.
Variable vt : Ch -> St -> St -> Pf -> bool.
Notation good := (good check_state vt).

Lemma sclp_update_spec : forall (s : sclp St Ch Pf) n p s1 err, length (c_chals s) = length (c_states s) ->
  sclp_update check_state challenge vt s n p = (s1, err) ->
  let k := good_prefix good (c_chals s) (c_states s) n p in
  (length n <> length (c_states s) \/ length p <> length (c_states s)) /\ s1 = s /\ err = Some TaskError
  \/ length n = length (c_states s) /\ length p = length (c_states s)
     /\ c_states s1 = firstn k n ++ skipn k (c_states s)
     /\ skipn k (c_chals s1) = skipn k (c_chals s)
     /\ length (c_chals s1) = length (c_chals s)
     /\ (forall i c t m q, i < k -> nth_error (c_chals s) i = Some c -> nth_error (c_states s) i = Some t ->
           nth_error n i = Some m -> nth_error p i = Some q ->
           good c t m q = true /\ nth_error (c_chals s1) i = Some (challenge c t m q))
     /\ (err = None /\ k = length (c_states s) /\ c_proof s1 = Some p /\ c_round s1 = S (c_round s)
         \/ err = Some BadRequest /\ k < length (c_states s) /\ c_proof s1 = c_proof s /\ c_round s1 = c_round s).
Proof.
  intros s n p s1 err L H. unfold sclp_update in H.
  destruct (Nat.eqb_spec (length n) (length (c_states s))) as [L1|L1];
    destruct (Nat.eqb_spec (length p) (length (c_states s))) as [L2|L2]; cbn [andb negb] in H;
    try (injection H as <- <-; left; auto).
  right. destruct (upd_loop check_state challenge vt (c_chals s) (c_states s) n p) as [[cs ss] ok] eqn:U.
  destruct (upd_loop_spec _ _ _ _ _ _ _ _ _ _ L L1 L2 U) as (A & B & C & D & F).
  pose proof (good_prefix_le check_state vt (c_chals s) (c_states s) n p) as LE.
  destruct ok; injection H as <- <-; cbn [c_states c_chals c_proof c_round];
    (split; [exact L1|]); (split; [exact L2|]); (split; [exact A|]); (split; [exact B|]); (split; [exact C|]);
    (split; [exact F|]).
  - left. repeat split. now apply D.
  - right. split; [reflexivity|]. split; [|auto].
    assert (good_prefix good (c_chals s) (c_states s) n p <> length (c_states s)) by (intros X; apply D in X; discriminate).
    lia.
Qed.

Lemma nth_error_same : forall (A : Type) k i (a b : list A), skipn k a = skipn k b -> k <= i -> nth_error a i = nth_error b i.
Proof.
  intros A k. induction k as [|k IH]; intros i a b E K; [cbn in E; now subst|].
  destruct i as [|i]; [lia|]. destruct a as [|x a], b as [|y b]; cbn [skipn nth_error] in *; auto.
  - symmetry in E. rewrite <- (@skipn_nil A k) in E.
    rewrite (IH i b [] E ltac:(lia)). now destruct i.
  - rewrite <- (@skipn_nil A k) in E. rewrite (IH i a [] E ltac:(lia)). now destruct i.
  - apply IH; [exact E|lia].
Qed.

Lemma transcript_lemma : forall i reqs (s s' : sclp St Ch Pf) saved c t,
  length (c_chals s) = length (c_states s) ->
  contributions check_state challenge vt s reqs = (s', saved) ->
  rejected_by check_state challenge vt i s reqs ->
  nth_error (c_chals s) i = Some c -> nth_error (c_states s) i = Some t ->
  exists c' t', nth_error (c_chals s') i = Some c' /\ nth_error (c_states s') i = Some t'
    /\ verify_all challenge vt c t (circuit_rounds i saved) = Some (c', t').
Proof.
  intros i. induction reqs as [|[n p] reqs IH]; intros s s' saved c t L H R C T; cbn [contributions rejected_by] in *.
  - injection H as <- <-. exists c, t. cbn. auto.
  - destruct (sclp_update check_state challenge vt s n p) as [s1 err] eqn:U.
    destruct (contributions check_state challenge vt s1 reqs) as [s2 saved2] eqn:K. injection H as <- <-.
    destruct R as [R1 R2].
    destruct (sclp_update_spec s n p s1 err L U) as [(_ & -> & ->)|(L1 & L2 & A & B & LC & F & [(-> & E & _)|(-> & E & _)])].
    + eapply IH; eauto.
    + assert (Hi : i < length (c_states s)) by (apply nth_error_Some; congruence).
      assert (S1 : c_states s1 = n).
      { rewrite A, E, <- L1, firstn_all. rewrite skipn_all2 by lia. apply app_nil_r. }
      destruct (nth_error n i) as [m|] eqn:M; [|apply nth_error_None in M; lia].
      destruct (nth_error p i) as [q|] eqn:Q; [|apply nth_error_None in Q; lia].
      destruct (F i c t m q) as [Gd C1]; auto; [lia|].
      destruct (IH s1 s2 saved2 (challenge c t m q) m) as (c' & t' & X & Y & Z); auto; [|congruence|].
      { rewrite LC, S1. lia. }
      exists c', t'. split; [exact X|]. split; [exact Y|].
      unfold circuit_rounds. cbn [flat_map fst snd]. rewrite S1, M, Q. cbn [app verify_all].
      unfold CerQueue.good in Gd. apply andb_prop in Gd. destruct Gd as [_ ->]. exact Z.
    + specialize (R1 eq_refl). fold good in R1.
      assert (Hi : i < length (c_states s)) by (apply nth_error_Some; congruence).
      set (k := good_prefix good (c_chals s) (c_states s) n p) in *.
      assert (L' : length (c_states s1) = length (c_states s)).
      { rewrite A, app_length, firstn_length, skipn_length. lia. }
      eapply IH; [|exact K|exact R2| |].
      * congruence.
      * rewrite (nth_error_same _ k i _ _ B R1). exact C.
      * rewrite A, nth_error_app2; rewrite firstn_length, Nat.min_l by lia; [|exact R1].
        rewrite <- T. rewrite <- (firstn_skipn k (c_states s)) at 2.
        rewrite nth_error_app2; rewrite firstn_length, Nat.min_l by lia; [reflexivity|exact R1].
Qed.

(** Every rejection is due to the last circuit or an earlier one. *)
Lemma rejected_by_last : forall reqs (s : sclp St Ch Pf) i, length (c_chals s) = length (c_states s) ->
  S i = length (c_states s) -> rejected_by check_state challenge vt i s reqs.
Proof.
  induction reqs as [|[n p] reqs IH]; intros s i L I; cbn [rejected_by]; [exact Logic.I|].
  destruct (sclp_update check_state challenge vt s n p) as [s1 err] eqn:U.
  destruct (sclp_update_spec s n p s1 err L U) as [(_ & -> & ->)|(L1 & L2 & A & B & LC & F & E)].
  - split; [discriminate|]. apply IH; auto.
  - assert (LS : length (c_states s1) = length (c_states s)).
    { pose proof (good_prefix_le check_state vt (c_chals s) (c_states s) n p).
      rewrite A, app_length, firstn_length, skipn_length. lia. }
    split; [|apply IH; lia]. intros ->. destruct E as [(X & _)|(_ & E & _)]; [discriminate|].
    unfold CerQueue.good in E. lia.
Qed.
End Transcript.
