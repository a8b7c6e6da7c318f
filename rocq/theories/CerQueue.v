(** Lemmas about the multi-level queue, registries and the circuit loop. *)
From Coq Require Import List NArith Arith Bool Lia Permutation.
From Verif Require Import CerModel CerSpec.
Import ListNotations.

(** ** Queue *)
Lemma find_pos_some : forall l x p, find_pos l x = Some p -> nth_error l p = Some x.
Proof.
  induction l as [|y l IH]; intros x p H; cbn [find_pos] in H; [discriminate|].
  destruct (Nat.eqb_spec y x) as [->|E]; [now injection H as <-|].
  destruct (find_pos l x) as [p'|] eqn:F; [|discriminate].
  injection H as <-. exact (IH x p' F).
Qed.
Lemma find_pos_none : forall l x, find_pos l x = None <-> ~ In x l.
Proof.
  induction l as [|y l IH]; intros x; cbn [find_pos In]; [tauto|].
  destruct (Nat.eqb_spec y x) as [->|E]; [split; [discriminate|tauto]|].
  destruct (find_pos l x) as [p'|] eqn:F.
  - split; [discriminate|]. intros N. exfalso.
    assert (find_pos l x = None) by (apply IH; tauto). congruence.
  - split; [|auto]. intros _ [C|C]; [tauto|]. revert C. now apply IH.
Qed.

Lemma mq_push_length : forall q level x, length (mq_push q level x) = length q.
Proof. induction q as [|l q IH]; intros [|level] x; cbn; auto. Qed.
Lemma mq_push_same : forall q level x, level < length q ->
  nth level (mq_push q level x) [] = nth level q [] ++ [x].
Proof. induction q as [|l q IH]; intros [|level] x H; cbn in *; auto; try lia. apply IH; lia. Qed.
Lemma mq_push_other : forall q level x k, k <> level -> nth k (mq_push q level x) [] = nth k q [].
Proof.
  induction q as [|l q IH]; intros [|level] x [|k] H; cbn; auto; try lia.
Qed.
Lemma mq_push_perm : forall q level x, level < length q -> Permutation (concat (mq_push q level x)) (x :: concat q).
Proof.
  induction q as [|l q IH]; intros [|level] x H; cbn in *; try lia.
  - rewrite <- app_assoc. cbn. symmetry. apply Permutation_middle.
  - rewrite IH by lia. symmetry. apply Permutation_middle.
Qed.

Lemma mq_pop_length : forall q r q', mq_pop q = (r, q') -> length q' = length q.
Proof.
  induction q as [|[|x l] q IH]; intros r q' H; cbn in H.
  - now injection H as <- <-.
  - destruct (mq_pop q) as [r' q''] eqn:E. injection H as <- <-. cbn. f_equal. exact (IH _ _ eq_refl).
  - now injection H as <- <-.
Qed.
Lemma mq_pop_some : forall q x q', mq_pop q = (Some x, q') -> concat q = x :: concat q'.
Proof.
  induction q as [|[|y l] q IH]; intros x q' H; cbn in H; [discriminate| |].
  - destruct (mq_pop q) as [r' q''] eqn:E. injection H as -> <-. cbn. exact (IH _ _ eq_refl).
  - now injection H as <- <-.
Qed.
Lemma mq_pop_none : forall q q', mq_pop q = (None, q') -> q' = q /\ concat q = [].
Proof.
  induction q as [|[|y l] q IH]; intros q' H; cbn in H.
  - now injection H as <-.
  - destruct (mq_pop q) as [r' q''] eqn:E. injection H as -> <-.
    destruct (IH _ eq_refl) as [-> C]. auto.
  - discriminate.
Qed.
(** Each level is unchanged, except that the first non-empty one lost its head. *)
Lemma mq_pop_levels : forall q x q', mq_pop q = (Some x, q') ->
  exists level, (forall k, k < level -> nth k q [] = []) /\ nth level q [] = x :: nth level q' []
                /\ forall k, k <> level -> nth k q' [] = nth k q [].
Proof.
  induction q as [|[|y l] q IH]; intros x q' H; cbn in H; [discriminate| |].
  - destruct (mq_pop q) as [r' q''] eqn:E. injection H as -> <-.
    destruct (IH _ _ eq_refl) as (lv & A & B & C).
    exists (S lv). split; [|split; [exact B|]].
    + intros [|k] Hk; [reflexivity|]. apply A. lia.
    + intros [|k] Hk; [reflexivity|]. cbn. apply C. lia.
  - injection H as <- <-. exists 0. split; [lia|]. split; [reflexivity|].
    intros [|k] Hk; [lia|reflexivity].
Qed.
Lemma mq_pop_level : forall q r q' k, mq_pop q = (r, q') -> exists j, nth k q' [] = skipn j (nth k q []).
Proof.
  intros q [x|] q' k H.
  - destruct (mq_pop_levels _ _ _ H) as (lv & A & B & C).
    destruct (Nat.eq_dec k lv) as [->|E].
    + exists 1. now rewrite B.
    + exists 0. now rewrite (C k E).
  - destruct (mq_pop_none _ _ H) as [-> _]. now exists 0.
Qed.

Lemma nth_concat : forall (q : list (list nat)) level i x, nth_error (nth level q []) i = Some x ->
  nth_error (concat q) (i + leading q level) = Some x.
Proof.
  unfold leading. induction q as [|l q IH]; intros [|level] i x H; cbn [nth firstn map concat] in *;
    try (now destruct i).
  - change (list_sum []) with 0. rewrite Nat.add_0_r. rewrite nth_error_app1; [exact H|].
    apply nth_error_Some. congruence.
  - specialize (IH level i x H). change (list_sum (length l :: map (@length nat) (firstn level q)))
      with (length l + list_sum (map (@length nat) (firstn level q))).
    rewrite nth_error_app2 by lia. rewrite <- IH. f_equal. lia.
Qed.
Lemma leading_push : forall q level x, leading (mq_push q level x) level = leading q level.
Proof.
  unfold leading. induction q as [|l q IH]; intros [|level] x; cbn; auto.
Qed.

Lemma mq_push_if_missing_spec : forall q level x q' fresh pos, level < length q ->
  mq_push_if_missing q level x = (q', fresh, pos) ->
  nth_error (concat q') pos = Some x
  /\ (fresh = false /\ q' = q /\ In x (nth level q [])
      \/ fresh = true /\ q' = mq_push q level x /\ ~ In x (nth level q [])).
Proof.
  intros q level x q' fresh pos Hl H. unfold mq_push_if_missing, mq_position in H.
  destruct (find_pos (nth level q []) x) as [p|] eqn:F.
  - injection H as <- <- <-. pose proof (find_pos_some _ _ _ F) as N. split.
    + apply nth_concat, N.
    + left. split; [auto|]. split; [auto|]. exact (nth_error_In _ _ N).
  - injection H as <- <- <-. split.
    + set (q2 := mq_push q level x). assert (E : nth level q2 [] = nth level q [] ++ [x]) by (apply mq_push_same, Hl).
      rewrite E, app_length. cbn [length].
      replace (leading q2 level + (length (nth level q []) + 1) - 1) with (length (nth level q []) + leading q2 level) by lia.
      apply nth_concat. rewrite E, nth_error_app2, Nat.sub_diag by lia. reflexivity.
    + right. split; [auto|]. split; [auto|]. now apply find_pos_none.
Qed.

Lemma nodup_skipn : forall (A : Type) j (l : list A), NoDup l -> NoDup (skipn j l).
Proof.
  intros A j l H. rewrite <- (firstn_skipn j l) in H.
  induction (firstn j l) as [|a f IH]; [exact H|]. apply IH. cbn in H. now inversion H.
Qed.

Lemma nth_error_mq_get : forall q i, mq_get q i = nth_error (concat q) i.
Proof.
  induction q as [|l q IH]; intros i; cbn [mq_get concat]; [now destruct i|].
  destruct (nth_error l i) as [x|] eqn:E.
  - rewrite nth_error_app1; [auto|]. apply nth_error_Some. congruence.
  - apply nth_error_None in E. rewrite nth_error_app2 by lia. apply IH.
Qed.

(** ** Registries *)
Lemma reg_set_same : forall r id p, reg_set r id p id = Some p.
Proof. intros. unfold reg_set. now rewrite Nat.eqb_refl. Qed.
Lemma reg_set_other : forall r id p x, x <> id -> reg_set r id p x = r x.
Proof. intros. unfold reg_set. now rewrite (proj2 (Nat.eqb_neq _ _) H). Qed.
Lemma reg_mod_spec : forall r id f x,
  reg_mod r id f x = if x =? id then option_map f (r x) else r x.
Proof.
  intros r id f x. unfold reg_mod. destruct (Nat.eqb_spec x id) as [->|E].
  - destruct (r id) eqn:R; [apply reg_set_same|now rewrite R].
  - destruct (r id); [now apply reg_set_other|reflexivity].
Qed.
Lemma reg_load_spec : forall recs r id,
  match r id with
  | Some p => reg_load r recs id = Some p
  | None => reg_load r recs id = first_record (map Some recs) id
  end.
Proof.
  unfold reg_load. induction recs as [|[k p] recs IH]; intros r id; cbn [fold_left map first_record fst snd].
  - now destruct (r id).
  - specialize (IH (reg_insert r k p) id). unfold reg_insert in *.
    destruct (r k) as [pk|] eqn:K.
    + destruct (r id) as [pi|] eqn:I; [exact IH|].
      destruct (Nat.eqb_spec k id) as [->|E]; [congruence|exact IH].
    + destruct (Nat.eqb_spec k id) as [->|E].
      * rewrite K. rewrite reg_set_same in IH. exact IH.
      * rewrite (reg_set_other _ _ _ _ (not_eq_sym E)) in IH. exact IH.
Qed.

Lemma freg_get_app : forall a b id,
  freg_get (a ++ b) id = match freg_get a id with Some p => Some p | None => freg_get b id end.
Proof.
  induction a as [|[k p] a IH]; intros b id; cbn [app freg_get]; [reflexivity|].
  destruct (k =? id); [reflexivity|apply IH].
Qed.
Lemma freg_get_in : forall r id, freg_get r id = None <-> ~ In id (map fst r).
Proof.
  induction r as [|[k p] r IH]; intros id; cbn [freg_get map In fst]; [tauto|].
  destruct (Nat.eqb_spec k id) as [->|E]; [split; [discriminate|tauto]|].
  rewrite IH. tauto.
Qed.

Lemma freg_load_get : forall recs r id r' n, freg_load r recs = (r', n) ->
  freg_get r' id = match freg_get r id with Some p => Some p | None => first_record recs id end.
Proof.
  intros recs r id r' n H. unfold freg_load in H. injection H as <- _.
  revert r. induction recs as [|[[k p]|] recs IH]; intros r; cbn [fold_left first_record].
  - now destruct (freg_get r id).
  - rewrite IH. unfold freg_insert. destruct (freg_get r k) as [pk|] eqn:K.
    + destruct (freg_get r id) eqn:I; [reflexivity|].
      destruct (Nat.eqb_spec k id) as [->|E]; [congruence|reflexivity].
    + rewrite freg_get_app. cbn [freg_get]. destruct (freg_get r id) as [q|] eqn:I; [reflexivity|].
      destruct (k =? id); reflexivity.
  - apply IH.
Qed.

(** Appending to the registry appends the new keys, in order and without repetition. *)
Lemma freg_load_keys : forall recs r, exists ext,
  map fst (fold_left (fun r e => match e with Some (id, p) => freg_insert r id p | None => r end) recs r)
    = map fst r ++ ext
  /\ NoDup ext
  /\ forall k, In k ext <-> ~ In k (map fst r) /\ In k (flat_map (fun e => match e with Some (k, _) => [k] | None => [] end) recs).
Proof.
  induction recs as [|[[k p]|] recs IH]; intros r; cbn [fold_left flat_map].
  - exists []. rewrite app_nil_r. repeat split; try constructor; cbn; tauto.
  - destruct (IH (freg_insert r k p)) as (ext & A & B & C). unfold freg_insert in *.
    destruct (freg_get r k) as [pk|] eqn:K.
    + exists ext. split; [exact A|]. split; [exact B|]. intros j. rewrite C. cbn [app In].
      assert (In k (map fst r)).
      { destruct (in_dec Nat.eq_dec k (map fst r)); auto. exfalso.
        assert (freg_get r k = None) by now apply freg_get_in. congruence. }
      split; [tauto|]. intros [N [<-|I]]; tauto.
    + assert (Nk : ~ In k (map fst r)) by now apply freg_get_in.
      exists (k :: ext). rewrite A, map_app. cbn [map fst]. rewrite <- app_assoc. split; [reflexivity|].
      assert (Nx : ~ In k ext).
      { intros I. apply C in I. destruct I as [I _]. apply I. rewrite map_app, in_app_iff. cbn. tauto. }
      split; [now constructor|]. intros j. cbn [In app]. rewrite C, map_app, in_app_iff. cbn [map fst In].
      destruct (Nat.eq_dec k j) as [<-|E]; tauto.
  - destruct (IH r) as (ext & A & B & C). exists ext. auto.
Qed.
Lemma new_ids_spec : forall r recs k, In k (new_ids r recs) <->
  ~ In k (map fst r) /\ In k (flat_map (fun e => match e with Some (k, _) => [k] | None => [] end) recs).
Proof.
  intros r recs k. unfold new_ids. rewrite nodup_In.
  induction recs as [|[[j p]|] recs IH]; cbn [flat_map]; [cbn; tauto| |exact IH].
  rewrite !in_app_iff, IH. destruct (existsb (fun e => fst e =? j) r) eqn:X; cbn [In].
  - assert (In j (map fst r)).
    { apply existsb_exists in X. destruct X as (e & I & Ej). apply Nat.eqb_eq in Ej. subst j. now apply in_map. }
    split; [tauto|]. intros [N [[<-|[]]|I]]; tauto.
  - assert (~ In j (map fst r)).
    { intros I. apply in_map_iff in I. destruct I as (e & <- & I).
      assert (existsb (fun x => fst x =? fst e) r = true); [|congruence].
      apply existsb_exists. exists e. split; [exact I|apply Nat.eqb_refl]. }
    split; [intros [[<-|[]]|?]; tauto|]. intros [N [[<-|[]]|I]]; tauto.
Qed.

(** ** The circuit loop *)
Section Loop.
Context {St Ch Pf : Type}.
Variable check_state : St -> bool.
Variable challenge : Ch -> St -> St -> Pf -> Ch.
Variable vt : Ch -> St -> St -> Pf -> bool.
Definition good (c : Ch) (s n : St) (p : Pf) : bool := check_state n && vt c s n p.

Lemma upd_loop_spec : forall chs sts nexts pfs cs ss ok,
  length chs = length sts -> length nexts = length sts -> length pfs = length sts ->
  upd_loop check_state challenge vt chs sts nexts pfs = (cs, ss, ok) ->
  let k := good_prefix good chs sts nexts pfs in
  ss = firstn k nexts ++ skipn k sts
  /\ skipn k cs = skipn k chs
  /\ length cs = length chs
  /\ (ok = true <-> k = length sts)
  /\ (forall i c s n p, i < k -> nth_error chs i = Some c -> nth_error sts i = Some s ->
        nth_error nexts i = Some n -> nth_error pfs i = Some p ->
        good c s n p = true /\ nth_error cs i = Some (challenge c s n p)).
Proof.
  induction chs as [|c chs IH]; intros [|s sts] [|n nexts] [|p pfs] cs ss ok L1 L2 L3 H; cbn in L1, L2, L3;
    try discriminate.
  - cbn in H. injection H as <- <- <-. cbn. repeat split; auto; intros; lia.
  - cbn [upd_loop good_prefix] in *. fold (good c s n p) in H. destruct (good c s n p) eqn:G.
    + destruct (upd_loop check_state challenge vt chs sts nexts pfs) as [[cs1 ss1] ok1] eqn:E.
      injection H as <- <- <-.
      destruct (IH sts nexts pfs cs1 ss1 ok1) as (A & B & C & D & F); auto; try lia.
      cbn [firstn skipn app length]. split; [now rewrite A|]. split; [exact B|]. split; [now rewrite C|].
      split; [split; intros X; [now rewrite (proj1 D X)|apply D; lia]|].
      intros [|i] c0 s0 n0 p0 Hi; cbn [nth_error].
      * intros X1 X2 X3 X4. injection X1 as <-. injection X2 as <-. injection X3 as <-. injection X4 as <-. auto.
      * apply F. lia.
    + injection H as <- <- <-. cbn. split; [auto|]. split; [auto|]. split; [auto|]. split; [split; discriminate|].
      intros; lia.
Qed.

Lemma good_prefix_le : forall chs sts nexts pfs, good_prefix good chs sts nexts pfs <= length sts.
Proof.
  induction chs as [|c chs IH]; intros [|s sts] [|n nexts] [|p pfs]; cbn; try lia.
  destruct (good c s n p); [|lia]. specialize (IH sts nexts pfs). lia.
Qed.
(** The circuit at which the loop stops is not acceptable. *)
Lemma good_prefix_stop : forall chs sts nexts pfs,
  length chs = length sts -> length nexts = length sts -> length pfs = length sts ->
  let k := good_prefix good chs sts nexts pfs in
  k < length sts ->
  exists c s n p, nth_error chs k = Some c /\ nth_error sts k = Some s /\ nth_error nexts k = Some n
    /\ nth_error pfs k = Some p /\ good c s n p = false.
Proof.
  induction chs as [|c chs IH]; intros [|s sts] [|n nexts] [|p pfs] L1 L2 L3; cbn in *; try lia.
  destruct (good c s n p) eqn:G; intros K; cbn [nth_error].
  - apply IH; lia.
  - now exists c, s, n, p.
Qed.
End Loop.
