(** * Parameters: download, checksums and build script: properties (C90) *)
From Coq Require Import List ZArith Lia Bool Arith.
From Verif Require Import DlModel.
Import ListNotations.

Lemma same_eq a : forall b, same a b = true <-> a = b.
Proof.
  induction a as [|x a IH]; intros [|y b]; cbn; split; try discriminate; auto.
  - intros H. apply andb_true_iff in H. destruct H as [H1 H2]. apply Z.eqb_eq in H1. apply IH in H2. now subst.
  - intros H. injection H as -> ->. rewrite Z.eqb_refl. now apply IH.
Qed.

Section Hash.
Variable hash : list Z -> list Z.

(** ** Downloads *)
(** Success means that the file has the checksum, whatever the servers answer and whatever the file was. *)
Theorem c90_download lfs raw checksum f f' : download hash lfs raw checksum f = (f', true) ->
  exists c, f' = Some c /\ hash c = checksum.
Proof.
  unfold download. destruct (download_unchecked lfs raw f) as [c []]; intros H; [|discriminate].
  injection H as <- V. exists c. split; [reflexivity|]. now apply same_eq.
Qed.
Theorem c90_if_invalid lfs raw checksum f :
  (forall f', download_if_invalid hash lfs raw checksum f = (f', true) -> exists c, f' = Some c /\ hash c = checksum) /\
  (forall c, f = Some c -> hash c = checksum -> download_if_invalid hash lfs raw checksum f = (f, true)).
Proof.
  unfold download_if_invalid. split.
  - intros f'. destruct f as [c|]; [|apply c90_download].
    destruct (verify hash c checksum) eqn:V; [|apply c90_download]. intros H. injection H as <-. exists c. split; [reflexivity|]. now apply same_eq.
  - intros c -> H. unfold verify. now rewrite (proj2 (same_eq _ _) H).
Qed.

(** An answer that breaks off is an error, even if what is in the file then happens to have the checksum. *)
Theorem c90_broken lfs raw checksum f : snd lfs = false \/ (lfs = ([], true) /\ snd raw = false) ->
  snd (download hash lfs raw checksum f) = false.
Proof.
  intros H. unfold download, download_unchecked. destruct lfs as [l lc], raw as [r rc]. cbn [snd download_from] in *.
  destruct H as [->|[H ->]]; [reflexivity|]. injection H as -> ->. reflexivity.
Qed.

Lemma overwrite_short old new : length old <= length new -> overwrite old new = new.
Proof. intros L. unfold overwrite. rewrite skipn_all2 by exact L. apply app_nil_r. Qed.
(** Good data are stored, from the raw storage if the LFS has nothing, unless there is a longer file already. *)
Theorem c90_good lfs raw data f : data <> [] ->
  (lfs = (data, true) \/ lfs = ([], true) /\ raw = (data, true)) ->
  (forall c, f = Some c -> length c <= length data) ->
  download hash lfs raw (hash data) f = (Some data, true).
Proof.
  intros N S F. unfold download.
  assert (L : length (match f with Some c => c | None => [] end) <= length data) by (destruct f as [c|]; [now apply F|cbn; lia]).
  assert (D : download_unchecked lfs raw f = (data, true)).
  { unfold download_unchecked. destruct S as [->|[-> ->]]; cbn [download_from].
    - rewrite overwrite_short by exact L. destruct data; [congruence|reflexivity].
    - cbn [length]. replace (overwrite (match f with Some c => c | None => [] end) []) with (match f with Some c => c | None => [] end) by reflexivity.
      now rewrite overwrite_short by exact L. }
  rewrite D. unfold verify. now rewrite (proj2 (same_eq _ _) eq_refl).
Qed.

(** A longer file that is not valid keeps its end, so that no number of attempts succeeds. *)
Theorem c90_stuck n raw data tail old : data <> [] -> hash (data ++ tail) <> hash data -> tail = skipn (length data) old ->
  hash old <> hash data ->
  retry hash n (data, true) raw (hash data) (Some old) = (Some (data ++ tail), false).
Proof.
  intros N H -> O.
  assert (W : forall c, hash c <> hash data -> skipn (length data) c = skipn (length data) old ->
    download_if_invalid hash (data, true) raw (hash data) (Some c) = (Some (data ++ skipn (length data) old), false)).
  { intros c C T. unfold download_if_invalid. destruct (verify hash c (hash data)) eqn:V; [apply same_eq in V; congruence|].
    unfold download, download_unchecked. cbn [download_from]. unfold overwrite. rewrite T.
    destruct data as [|x data]; [congruence|]. cbn [length]. f_equal. unfold verify.
    destruct (same (hash ((x :: data) ++ skipn (S (length data)) old)) (hash (x :: data))) eqn:Q; [apply same_eq in Q; now elim H|reflexivity]. }
  assert (G : forall n c, hash c <> hash data -> skipn (length data) c = skipn (length data) old ->
    retry hash n (data, true) raw (hash data) (Some c) = (Some (data ++ skipn (length data) old), false)); [|now apply G].
  clear n. induction n as [|n IH]; intros c C T; cbn [retry]; [now apply W|]. rewrite W by auto. cbn [fst]. apply IH; [exact H|].
  now rewrite skipn_app, Nat.sub_diag, skipn_all.
Qed.

(** ** The build script *)
Lemma path_eqb_eq p q : path_eqb p q = true <-> p = q.
Proof.
  destruct p as [a x], q as [b y]. unfold path_eqb. cbn [fst snd]. rewrite andb_true_iff, Nat.eqb_eq. split.
  - intros [-> H]. f_equal. destruct x, y; (reflexivity || discriminate).
  - intros H. injection H as -> ->. split; [reflexivity|]. now destruct y.
Qed.
Lemma lookup_other d p q b : q <> p -> lookup ((q, b) :: d) p = lookup d p.
Proof. intros N. cbn. destruct (path_eqb q p) eqn:Q; [apply path_eqb_eq in Q; congruence|reflexivity]. Qed.
Lemma lookup_here d p b : lookup ((p, b) :: d) p = Some b.
Proof. cbn. now rewrite (proj2 (path_eqb_eq p p) eq_refl). Qed.
Lemma kept checksums files : forall out out' stem e, build hash checksums files out = Some out' ->
  (forall data, ~ In ((stem, Dat), data) files) -> (forall data, ~ In ((stem, Lfs), data) files) ->
  lookup out' (stem, e) = lookup out (stem, e).
Proof.
  induction files as [|[[s x] data] files IH]; intros out out' stem e B HD HL; cbn [build] in B; [now injection B as <-|].
  destruct (compile hash checksums out (s, x) data) as [o|] eqn:C; [|discriminate].
  rewrite (IH o out' stem e B) by (intros d I; first [apply (HD d); now right | apply (HL d); now right]).
  unfold compile in C. cbn [fst snd] in C. destruct x; try discriminate.
  - assert (s <> stem) by (intros ->; apply (HD data); now left).
    destruct (lookup checksums (s, Dat)) as [c|]; [|discriminate]. destruct (same (hash data) c); [|discriminate].
    injection C as <-. rewrite !lookup_other by congruence. reflexivity.
  - assert (s <> stem) by (intros ->; apply (HL data); now left).
    destruct (lookup checksums (s, Lfs)) as [c|]; [|discriminate]. injection C as <-. rewrite lookup_other by congruence. reflexivity.
  - now injection C as <-.
  - now injection C as <-.
Qed.

(** After a build the library gets the data of every file, if no stem has both kinds of file. *)
Theorem c90_build checksums files out : NoDup (map fst files) ->
  (forall stem a b, In ((stem, Dat), a) files -> ~ In ((stem, Lfs), b) files) ->
  build hash checksums files [] = Some out ->
  forall stem data, In ((stem, Dat), data) files ->
    get hash out stem = Some (Some data) /\ lookup checksums (stem, Dat) = Some (hash data).
Proof.
  intros ND K. generalize (@nil (path * list Z)). revert ND K. induction files as [|[[s x] d] files IH]; intros ND K o B stem data I; [destruct I|].
  cbn [build] in B. destruct (compile hash checksums o (s, x) d) as [o1|] eqn:C; [|discriminate].
  cbn [map fst] in ND. inversion ND as [|? ? Nin ND']; subst.
  destruct I as [I|I].
  - assert (s = stem /\ x = Dat /\ d = data) as (-> & -> & ->) by (now inversion I).
    unfold compile in C. cbn [fst snd] in C. destruct (lookup checksums (stem, Dat)) as [c|] eqn:Lc; [|discriminate].
    destruct (same (hash data) c) eqn:Q; [|discriminate]. injection C as <-. apply same_eq in Q. subst c. split; [|reflexivity].
    assert (Kp : forall e, lookup out (stem, e) = lookup (((stem, Dat), data) :: ((stem, Checksum), hash data) :: o) (stem, e)).
    { intros e. apply (kept checksums files); [exact B| |].
      - intros b J. apply Nin. apply (in_map fst) in J. exact J.
      - intros b J. apply (K stem data b); [now left|now right]. }
    unfold get. rewrite !Kp. rewrite lookup_here. rewrite lookup_other by congruence. rewrite lookup_here.
    unfold verify. now rewrite (proj2 (same_eq _ _) eq_refl).
  - apply (IH ND') with (l := o1); auto. intros s' a b Ja Jb. apply (K s' a b); now right.
Qed.
(** What the library gets has the checksum it was built with. *)
Theorem c90_get out stem data : get hash out stem = Some (Some data) <->
  lookup out (stem, Dat) = Some data /\ lookup out (stem, Checksum) = Some (hash data).
Proof.
  unfold get, verify. destruct (lookup out (stem, Checksum)) as [c|]; [|split; [discriminate|intros [_ H]; discriminate]].
  destruct (lookup out (stem, Dat)) as [d|]; [|split; [discriminate|intros [H _]; discriminate]].
  destruct (same (hash d) c) eqn:Q; split; intros H; try discriminate.
  - apply same_eq in Q. injection H as <-. split; congruence.
  - destruct H as [H _]. congruence.
  - destruct H as [H1 H2]. assert (Q' : same (hash d) c = true) by (apply same_eq; congruence). congruence.
Qed.
(** And of every file of the LFS the library has the checksum of the checkfile. *)
Theorem c90_build_lfs checksums files out : NoDup (map fst files) ->
  (forall stem a b, In ((stem, Dat), a) files -> ~ In ((stem, Lfs), b) files) ->
  build hash checksums files [] = Some out ->
  forall stem data, In ((stem, Lfs), data) files ->
    exists c, lookup checksums (stem, Lfs) = Some c /\ lookup out (stem, Checksum) = Some c.
Proof.
  intros ND K. generalize (@nil (path * list Z)). revert ND K. induction files as [|[[s x] d] files IH]; intros ND K o B stem data I; [destruct I|].
  cbn [build] in B. destruct (compile hash checksums o (s, x) d) as [o1|] eqn:C; [|discriminate].
  cbn [map fst] in ND. inversion ND as [|? ? Nin ND']; subst.
  destruct I as [I|I].
  - assert (s = stem /\ x = Lfs /\ d = data) as (-> & -> & ->) by (now inversion I).
    unfold compile in C. cbn [fst snd] in C. destruct (lookup checksums (stem, Lfs)) as [c|] eqn:Lc; [|discriminate].
    injection C as <-. exists c. split; [reflexivity|].
    rewrite (kept checksums files (((stem, Checksum), c) :: o) out stem Checksum B); [apply lookup_here| |].
    + intros b J. apply (K stem b data); [now right|now left].
    + intros b J. apply Nin. apply (in_map fst) in J. exact J.
  - apply (IH ND') with (l := o1) (data := data); auto. intros s' a b Ja Jb. apply (K s' a b); now right.
Qed.
(** A build fails if a file has another hash than the checkfile says, or none. *)
Theorem c90_build_wrong checksums files stem data : In ((stem, Dat), data) files ->
  lookup checksums (stem, Dat) <> Some (hash data) -> forall out, build hash checksums files out = None.
Proof.
  intros I N. induction files as [|[p d] files IH]; [destruct I|]. intros out. cbn [build].
  destruct I as [I|I]; [|destruct (compile hash checksums out p d); auto].
  injection I as -> ->. unfold compile. cbn [snd]. destruct (lookup checksums (stem, Dat)) as [c|]; [|reflexivity].
  destruct (same (hash data) c) eqn:Q; [apply same_eq in Q; congruence|reflexivity].
Qed.
End Hash.

(** ** Examples, with a sum and the length for the hash *)
Local Open Scope Z_scope.
Definition sum_hash (l : list Z) : list Z := [fold_right Z.add 0 l; Z.of_nat (length l)].
Example ex_c90_download : download sum_hash ([1; 2], true) ([], true) (sum_hash [1; 2]) (Some [7]) = (Some [1; 2], true).
Proof. reflexivity. Qed.
Example ex_c90_if_invalid : download_if_invalid sum_hash ([5], true) ([], true) (sum_hash [1; 2]) (Some [1; 2]) = (Some [1; 2], true) /\
  download_if_invalid sum_hash ([], true) ([1; 2], true) (sum_hash [1; 2]) None = (Some [1; 2], true) /\
  download_if_invalid sum_hash ([1], false) ([1; 2], true) (sum_hash [1; 2]) None = (Some [1], false).
Proof. repeat split. Qed.
Example ex_c90_broken : download sum_hash ([1; 2], false) ([], true) (sum_hash [1; 2]) None = (Some [1; 2], false).
Proof. reflexivity. Qed.
Example ex_c90_get : get sum_hash [((0%nat, Dat), [1; 2]); ((0%nat, Checksum), sum_hash [1; 2])] 0%nat = Some (Some [1; 2]).
Proof. reflexivity. Qed.
Example ex_c90_good : [1; 2] <> [] /\ (forall c, Some [7] = Some c -> (length c <= length [1; 2])%nat).
Proof. split; [discriminate|]. intros c H. injection H as <-. cbn. lia. Qed.
Example ex_c90_stuck : sum_hash ([1; 2] ++ [9]) <> sum_hash [1; 2] /\ [9] = skipn (length [1; 2]) [7; 8; 9] /\ sum_hash [7; 8; 9] <> sum_hash [1; 2].
Proof. repeat split; discriminate. Qed.
Example ex_c90_build : let checks := [((0%nat, Dat), sum_hash [1; 2]); ((1%nat, Lfs), [42; 1])] in
  let files := [((0%nat, Dat), [1; 2]); ((1%nat, Lfs), [5]); ((2%nat, Md), [6])] in
  NoDup (map fst files) /\ (forall stem a b, In ((stem, Dat), a) files -> ~ In ((stem, Lfs), b) files) /\
  exists out, build sum_hash checks files [] = Some out /\ get sum_hash out 0%nat = Some (Some [1; 2]).
Proof.
  cbv zeta. split; [|split].
  - repeat constructor; cbn; intuition discriminate.
  - intros stem a b [H|[H|[H|[]]]] [J|[J|[J|[]]]]; congruence.
  - eexists. split; reflexivity.
Qed.
Example ex_c90_build_lfs : option_map (fun out => lookup out (1%nat, Checksum))
  (build sum_hash [((0%nat, Dat), sum_hash [1; 2]); ((1%nat, Lfs), [42; 1])] [((0%nat, Dat), [1; 2]); ((1%nat, Lfs), [5])] []) = Some (Some [42; 1]).
Proof. reflexivity. Qed.
Example ex_c90_build_wrong : build sum_hash [((0%nat, Dat), [9; 9])] [((0%nat, Dat), [1; 2])] [] = None.
Proof. reflexivity. Qed.

(** ** Refuted *)
(** "With good answers [download_if_invalid] repairs every file": not one that is too long, however often it is called. *)
Theorem c90_repair_refuted : exists data old, data <> [] /\
  forall n raw, snd (retry sum_hash n (data, true) raw (sum_hash data) (Some old)) = false.
Proof.
  exists [1; 2], [7; 8; 9]. split; [discriminate|]. intros n raw.
  rewrite (c90_stuck sum_hash n raw [1; 2] [9]); [reflexivity|discriminate|discriminate|reflexivity|discriminate].
Qed.
(** "A build that succeeds gives a library that gets its data": not if a stem has a local file and one of the LFS. *)
Theorem c90_stem_refuted : exists checks files out, NoDup (map fst files) /\ build sum_hash checks files [] = Some out /\
  In ((0%nat, Dat), [1; 2]) files /\ get sum_hash out 0%nat = Some None.
Proof.
  exists [((0%nat, Dat), sum_hash [1; 2]); ((0%nat, Lfs), [42; 1])], [((0%nat, Dat), [1; 2]); ((0%nat, Lfs), [5])].
  eexists. split; [repeat constructor; cbn; intuition discriminate|]. split; [reflexivity|]. split; [now left|reflexivity].
Qed.

Print Assumptions c90_download.
Print Assumptions c90_if_invalid.
Print Assumptions c90_broken.
Print Assumptions c90_get.
Print Assumptions c90_good.
Print Assumptions c90_stuck.
Print Assumptions c90_build.
Print Assumptions c90_build_lfs.
Print Assumptions c90_build_wrong.
Print Assumptions c90_repair_refuted.
Print Assumptions c90_stem_refuted.
