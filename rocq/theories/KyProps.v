(** * Accounts and their keys: properties (C82) *)
From Coq Require Import NArith Lia String Ascii Decimal DecimalString DecimalN List.
From Verif Require Import KyModel.
Import ListNotations.
Local Open Scope N_scope.

(** ** Specification *)

(** The children of the account [i] of a coin in BIP-44: purpose, coin and account, all hardened. *)
Definition hardened (n : N) : N := n + 2 ^ 31.
Definition bip44 (coin_id i : N) : list N := [hardened 44; hardened coin_id; hardened i].

(** The coin types registered in SLIP-44: 1 for test networks, 611 for Manta, 612 for Calamari. *)
Definition registered (c : coin) : N := match c with Testnet => 1 | Manta => 611 | Calamari => 612 end.

(** The tables that exist in an execution: a new table, and a table with one more account. *)
Inductive made {K} (k : K) : table K -> Prop :=
| made_new t : table_new k = Ok t -> made k t
| made_create t i t' : made k t -> table_create t = Ok (i, t') -> made k t'.

(** ** Decimal numerals *)

Fixpoint plain (s : string) : Prop :=
  match s with
  | EmptyString => True
  | String ch t => ch <> "/"%char /\ ch <> "'"%char /\ ch <> "+"%char /\ plain t
  end.

Lemma empty_plain u : plain (NilEmpty.string_of_uint u).
Proof. induction u; cbn; repeat split; try discriminate; assumption. Qed.
Lemma decimal_plain n : plain (decimal n).
Proof.
  unfold decimal. destruct (N.to_uint n) eqn:E; cbn; repeat split; try discriminate; apply empty_plain.
Qed.
Lemma decimal_not_empty n : decimal n <> EmptyString.
Proof. unfold decimal. destruct (N.to_uint n); discriminate. Qed.
Lemma to_uint_not_nil n : N.to_uint n <> Nil.
Proof.
  destruct n as [|q]; [discriminate|]. intros E. pose proof (DecimalN.Unsigned.of_to (Npos q)) as D.
  rewrite E in D. discriminate.
Qed.
Lemma decimal_parse n : NilZero.uint_of_string (decimal n) = Some (N.to_uint n).
Proof. apply NilZero.usu. apply to_uint_not_nil. Qed.
Lemma decimal_inj a b : decimal a = decimal b -> a = b.
Proof.
  intros E. apply (f_equal NilZero.uint_of_string) in E. rewrite !decimal_parse in E.
  injection E as E. apply DecimalN.Unsigned.to_uint_inj. exact E.
Qed.

Lemma append_assoc (a b c : string) : ((a ++ b) ++ c = a ++ (b ++ c))%string.
Proof. induction a; cbn; congruence. Qed.
Lemma append_nil (a : string) : (a ++ "" = a)%string.
Proof. induction a; cbn; congruence. Qed.

Lemma split_plain s rest cur : plain s ->
  split_on (s ++ String "'" (String "/" rest)) cur = (cur ++ s ++ "'")%string :: split_on rest EmptyString.
Proof.
  revert cur. induction s as [|ch t IH]; intros cur P; [reflexivity|].
  destruct P as [P1 [P2 [P3 P4]]]. cbn [append split_on].
  destruct (Ascii.eqb_spec ch "/") as [F|_]; [contradiction|].
  rewrite (IH _ P4), append_assoc. reflexivity.
Qed.
Lemma split_plain_end s cur : plain s -> split_on (s ++ "'") cur = [(cur ++ s ++ "'")%string].
Proof.
  revert cur. induction s as [|ch t IH]; intros cur P; [reflexivity|].
  destruct P as [P1 [P2 [P3 P4]]]. cbn [append split_on].
  destruct (Ascii.eqb_spec ch "/") as [F|_]; [contradiction|].
  rewrite (IH _ P4), append_assoc. reflexivity.
Qed.
Lemma strip_plain s : strip_quote (s ++ "'") = (s, true).
Proof.
  induction s as [|ch t IH]; [reflexivity|]. cbn [append].
  change (match t ++ "'" with
          | EmptyString => if Ascii.eqb ch "'" then (EmptyString, true) else (String ch EmptyString, false)
          | String _ _ => let '(r, b) := strip_quote (t ++ "'") in (String ch r, b) end = (String ch t, true))%string.
  rewrite IH. destruct t; reflexivity.
Qed.
Lemma parse_u32_decimal n : parse_u32 (decimal n) = if n <? 2 ^ 32 then Some n else None.
Proof.
  unfold parse_u32. pose proof (decimal_plain n) as P. pose proof (decimal_not_empty n) as E.
  destruct (decimal n) as [|ch t] eqn:D; [contradiction|].
  destruct P as [_ [_ [P _]]]. destruct (Ascii.eqb_spec ch "+") as [F|_]; [contradiction|].
  rewrite <- D, decimal_parse, DecimalN.Unsigned.of_to. reflexivity.
Qed.
Lemma parse_child_decimal n : parse_child (decimal n ++ "'")%string = if n <? 2 ^ 31 then Some (hardened n) else None.
Proof.
  unfold parse_child. rewrite strip_plain, parse_u32_decimal.
  destruct (N.ltb_spec n (2 ^ 32)), (N.ltb_spec n (2 ^ 31)); try reflexivity.
  change (2 ^ 32) with 4294967296 in *. change (2 ^ 31) with 2147483648 in *. lia.
Qed.

Lemma path_parse c i : parse_path (path_string c i) =
  if i <? 2 ^ 31 then Some (bip44 (coin_type_id c) i) else None.
Proof.
  unfold path_string, parse_path.
  change (split_on ("m/" ++ decimal 44 ++ "'/" ++ decimal (coin_type_id c) ++ "'/" ++ decimal i ++ "'") "")%string
    with ("m"%string :: split_on (decimal 44 ++ String "'" (String "/" (decimal (coin_type_id c) ++ String "'" (String "/" (decimal i ++ "'")))))%string EmptyString).
  rewrite (split_plain _ _ _ (decimal_plain 44)), (split_plain _ _ _ (decimal_plain (coin_type_id c))),
    (split_plain_end _ _ (decimal_plain i)).
  cbn [String.append String.eqb]. rewrite Ascii.eqb_refl. cbn [parse_children].
  rewrite !parse_child_decimal.
  assert (C : coin_type_id c <? 2 ^ 31 = true) by (destruct c; reflexivity). rewrite C.
  change (44 <? 2 ^ 31) with true. destruct (i <? 2 ^ 31); reflexivity.
Qed.

(** ** The account map *)

Lemma create_spec m : create_account m = if N.of_nat (length m) <? 2 ^ 32
  then Ok (N.of_nat (length m), m ++ [0]) else Panic.
Proof. unfold create_account, to_index. destruct (_ <? _); reflexivity. Qed.

Lemma map_get_app m x a : map_get (m ++ [x]) a =
  if a <? N.of_nat (length m) then map_get m a else if a =? N.of_nat (length m) then Some x else None.
Proof.
  unfold map_get. destruct (N.ltb_spec a (N.of_nat (length m))).
  - apply nth_error_app1. lia.
  - rewrite nth_error_app2 by lia. destruct (N.eqb_spec a (N.of_nat (length m))).
    + subst. rewrite Nnat.Nat2N.id, PeanoNat.Nat.sub_diag. reflexivity.
    + destruct (N.to_nat a - length m)%nat as [|k] eqn:E; [lia|]. destruct k; reflexivity.
Qed.

Lemma map_get_write m a x b : (N.to_nat a < length m)%nat ->
  map_get (write m (N.to_nat a) x) b = if b =? a then Some x else map_get m b.
Proof.
  unfold map_get. intros L.
  assert (G : forall l i j y, (i < length l)%nat -> nth_error (write l i y) j = if Nat.eqb j i then Some y else nth_error l j).
  { induction l as [|h t IH]; intros i j y H; [cbn in H; lia|].
    destruct i, j; cbn; try reflexivity. apply IH. cbn in H. lia. }
  rewrite (G _ _ _ _ L). destruct (N.eqb_spec b a) as [->|D].
  - rewrite PeanoNat.Nat.eqb_refl. reflexivity.
  - destruct (PeanoNat.Nat.eqb_spec (N.to_nat b) (N.to_nat a)); [lia|reflexivity].
Qed.

Lemma made_accounts {K} (k : K) t : made k t ->
  keys t = k /\ exists n, (1 <= n)%nat /\ N.of_nat n <= 2 ^ 32 /\ accounts t = repeat 0 n.
Proof.
  intros H. induction H as [t E|t i t' H [IH1 [n [IH2 [IH3 IH4]]]] E].
  - cbn in E. injection E as <-. split; [reflexivity|]. exists 1%nat. cbn. repeat split; lia.
  - unfold table_create in E. rewrite create_spec, IH4, repeat_length in E.
    destruct (N.ltb_spec (N.of_nat n) (2 ^ 32)); [|discriminate]. injection E as _ <-. cbn [keys accounts].
    split; [exact IH1|]. exists (S n). split; [lia|]. split; [lia|].
    change [0] with (repeat 0 1). rewrite <- repeat_app. f_equal. lia.
Qed.

Lemma nth_error_repeat0 n i : nth_error (repeat 0 n) i = if Nat.ltb i n then Some 0 else None.
Proof.
  revert i. induction n; intros [|i]; try reflexivity. cbn [repeat nth_error]. rewrite IHn. reflexivity.
Qed.

(** ** Theorems *)

(** The path of an account is the one of BIP-44 exactly for the indices below 2^31. *)
Theorem c82_path c i : i < 2 ^ 31 -> parse_path (path_string c i) = Some (bip44 (registered c) i).
Proof. intros H. rewrite path_parse. apply N.ltb_lt in H. rewrite H. destruct c; reflexivity. Qed.
Example ex_c82_path : path_string Manta 7 = "m/44'/611'/7'"%string /\
  parse_path (path_string Calamari 1203) = Some [2147483692; 2147484260; 2147484851] /\ 1203 < 2 ^ 31.
Proof. repeat split. Qed.

(** Two accounts with the same path are the same account of the same coin. *)
Theorem c82_path_injective c i c' i' : path_string c i = path_string c' i' -> c = c' /\ i = i'.
Proof.
  intros E.
  assert (S1 : forall d j, split_on (path_string d j) EmptyString =
    ["m"; decimal 44 ++ "'"; decimal (coin_type_id d) ++ "'"; decimal j ++ "'"]%string).
  { intros d j. unfold path_string.
    change (split_on ("m/" ++ decimal 44 ++ "'/" ++ decimal (coin_type_id d) ++ "'/" ++ decimal j ++ "'") "")%string
      with ("m"%string :: split_on (decimal 44 ++ String "'" (String "/" (decimal (coin_type_id d) ++ String "'" (String "/" (decimal j ++ "'")))))%string EmptyString).
    rewrite (split_plain _ _ _ (decimal_plain 44)), (split_plain _ _ _ (decimal_plain (coin_type_id d))),
      (split_plain_end _ _ (decimal_plain j)). reflexivity. }
  pose proof (S1 c i) as A. rewrite E, S1 in A. injection A as A1 A2.
  apply (f_equal strip_quote) in A1. apply (f_equal strip_quote) in A2. rewrite !strip_plain in *.
  injection A1 as A1. injection A2 as A2. apply decimal_inj in A1. apply decimal_inj in A2.
  split; [|congruence]. destruct c, c'; try reflexivity; discriminate.
Qed.
Example ex_c82_path_injective : path_string Manta 1 <> path_string Calamari 1 /\ path_string Manta 1 <> path_string Manta 11.
Proof. split; discriminate. Qed.

(** The spending key of an index is derived from the seed along the BIP-44 path. *)
Theorem c82_spending_key seed xprv spending
  (derive : seed -> list N -> option xprv) (from_bytes : xprv -> spending) c s i x :
  i < 2 ^ 31 -> derive s (bip44 (registered c) i) = Some x ->
  collection_spending_key seed xprv spending derive from_bytes (KeySecret seed c s) i = Ok (from_bytes x).
Proof.
  intros H D. unfold collection_spending_key, xpr_secret_key. cbn [the_coin the_seed].
  rewrite (c82_path _ _ H), D. reflexivity.
Qed.
(** A derivation that records its arguments. *)
Definition ex_derive (s : N) (p : list N) : option (N * list N) := Some (s, p).
Definition ex_from (x : N * list N) : N := fold_left (fun a b => a * 65537 + b) (snd x) (fst x).
Example ex_c82_spending_key : ex_derive 5 (bip44 611 3) = Some (5, [2147483692; 2147484259; 2147483651]) /\
  collection_spending_key N (N * list N) N ex_derive ex_from (KeySecret N Manta 5) 3 =
    Ok (ex_from (5, [2147483692; 2147484259; 2147483651])) /\
  collection_spending_key N (N * list N) N ex_derive ex_from (KeySecret N Manta 5) 3 <>
  collection_spending_key N (N * list N) N ex_derive ex_from (KeySecret N Manta 5) 4.
Proof. vm_compute. repeat split; discriminate. Qed.

(** From 2^31 on, whatever the derivation does, the key panics: the [expect] "Path string is valid
    by construction" is not satisfied for every [u32]. *)
Theorem c82_range_refuted : exists i, i < 2 ^ 32 /\ forall seed xprv spending
  (derive : seed -> list N -> option xprv) (from_bytes : xprv -> spending) k,
  collection_spending_key seed xprv spending derive from_bytes k i = Panic.
Proof.
  exists (2 ^ 31). split; [reflexivity|]. intros. unfold collection_spending_key, xpr_secret_key.
  rewrite path_parse. reflexivity.
Qed.
Theorem c82_range seed xprv spending
  (derive : seed -> list N -> option xprv) (from_bytes : xprv -> spending) k i :
  (forall s p, derive s p <> None) ->
  (collection_spending_key seed xprv spending derive from_bytes k i = Panic <-> 2 ^ 31 <= i).
Proof.
  intros D. unfold collection_spending_key, xpr_secret_key. rewrite path_parse.
  destruct (N.ltb_spec i (2 ^ 31)) as [L|L].
  - specialize (D (the_seed seed k) (bip44 (coin_type_id (the_coin seed k)) i)).
    destruct (derive _ _); [|contradiction]. split; [discriminate|lia].
  - split; [intros _; exact L|reflexivity].
Qed.
Example ex_c82_range : (forall s p, ex_derive s p <> None) /\
  collection_spending_key N (N * list N) N ex_derive ex_from (KeySecret N Testnet 9) 2147483647 <> Panic.
Proof. split; [discriminate|]. vm_compute. discriminate. Qed.

(** A new account gets the next index, is found afterwards, and no other account changes. *)
Theorem c82_create m i m' : create_account m = Ok (i, m') ->
  i < 2 ^ 32 /\ map_get m i = None /\ map_get m' i <> None /\ last_account m' = Ok i /\
  (forall j, j <> i -> map_get m' j = map_get m j).
Proof.
  rewrite create_spec. destruct (N.ltb_spec (N.of_nat (length m)) (2 ^ 32)) as [L|L]; [|discriminate].
  intros E. injection E as <- <-. split; [exact L|]. split; [|split; [|split]].
  - unfold map_get. apply nth_error_None. lia.
  - rewrite map_get_app, N.ltb_irrefl, N.eqb_refl. discriminate.
  - unfold last_account, to_index. rewrite app_length, PeanoNat.Nat.add_comm. cbn [length Nat.add].
    apply N.ltb_lt in L. rewrite L. reflexivity.
  - intros j D. rewrite map_get_app. destruct (N.ltb_spec j (N.of_nat (length m))); [reflexivity|].
    destruct (N.eqb_spec j (N.of_nat (length m))); [contradiction|].
    symmetry. unfold map_get. apply nth_error_None. lia.
Qed.
Example ex_c82_create : create_account [0; 0] = Ok (2, [0; 0; 0]) /\ last_account [0; 0; 0] = Ok 2.
Proof. split; reflexivity. Qed.

(** The creation panics exactly when all the 2^32 indices are taken. *)
Theorem c82_create_total m : create_account m = Panic <-> 2 ^ 32 <= N.of_nat (length m).
Proof.
  rewrite create_spec. destruct (N.ltb_spec (N.of_nat (length m)) (2 ^ 32)).
  - split; [discriminate|lia].
  - split; [intros _; assumption|reflexivity].
Qed.
Example ex_c82_create_total : create_account [4; 5] <> Panic.
Proof. discriminate. Qed.

(** An account exists exactly if its index is at most the last one. *)
Theorem c82_exists m l a : last_account m = Ok l -> (map_get m a <> None <-> a <= l).
Proof.
  unfold last_account, to_index, map_get. destruct (length m) as [|n] eqn:E; [discriminate|].
  destruct (_ <? _); [|discriminate]. intros H. injection H as <-. rewrite nth_error_Some, E. lia.
Qed.
Example ex_c82_exists : last_account [0; 0; 0] = Ok 2 /\ map_get [0; 0; 0] 2 = Some 0 /\ map_get [0; 0; 0] 3 = None.
Proof. repeat split. Qed.

(** A write through the mutable reference changes one account. *)
Theorem c82_write m a x m' : map_set m a x = Some m' ->
  map_get m a <> None /\ map_get m' a = Some x /\ (forall b, b <> a -> map_get m' b = map_get m b) /\
  last_account m' = last_account m.
Proof.
  unfold map_set. destruct (map_get m a) as [y|] eqn:G; [|discriminate]. intros E. injection E as <-.
  assert (L : (N.to_nat a < length m)%nat) by (apply nth_error_Some; unfold map_get in G; congruence).
  split; [discriminate|]. split; [rewrite map_get_write, N.eqb_refl by exact L; reflexivity|].
  split.
  - intros b D. rewrite map_get_write by exact L. apply N.eqb_neq in D. rewrite D. reflexivity.
  - unfold last_account. f_equal.
    assert (W : forall l i y, length (write l i y) = length l).
    { induction l; intros [|i] z; cbn; try reflexivity. rewrite IHl. reflexivity. }
    rewrite W. reflexivity.
Qed.
Example ex_c82_write : map_set [0; 0; 0] 1 1 = Some [0; 1; 0] /\ map_set [0] 1 1 = None.
Proof. split; reflexivity. Qed.

(** In every table of an execution the default account exists and is the one with index 0. *)
Theorem c82_default {K} (k : K) t : made k t ->
  table_get_default t = Ok (Account k 0) /\ map_get_default (accounts t) = Ok 0.
Proof.
  intros H. destruct (made_accounts k t H) as [<- [n [L [_ E]]]].
  unfold table_get_default, table_get, map_get_default, map_get. rewrite E, nth_error_repeat0.
  destruct n; [lia|]. split; reflexivity.
Qed.
Example ex_c82_default : exists t, made 5 t /\ accounts t = [0; 0].
Proof.
  eexists. split; [eapply made_create; [apply made_new; reflexivity|reflexivity]|reflexivity].
Qed.

(** Every account of every table of an execution has the keys of the index 0: the stored entry is
    the default index, not the index that [create_account] returned. *)
Theorem c82_same {K} (k : K) t a acc : made k t -> table_get t a = Some acc -> acc = Account k 0.
Proof.
  intros H. destruct (made_accounts k t H) as [<- [n [_ [_ E]]]].
  unfold table_get, map_get. rewrite E, nth_error_repeat0.
  destruct (Nat.ltb _ _); [|discriminate]. intros D. injection D as <-. reflexivity.
Qed.
Example ex_c82_same : made 5 (Table 5 [0; 0]) /\ table_get (Table 5 [0; 0]) 1 = Some (Account 5 0).
Proof. split; [eapply made_create; [apply made_new; reflexivity|reflexivity]|reflexivity]. Qed.

(** So two accounts of a table have the same spending key and the same address, although the keys
    of their indices are different. *)
Theorem c82_accounts_refuted : exists t i acc0 acc1, made (KeySecret N Manta 5) t /\
  table_create t = Ok (i, Table (keys t) [0; 0]) /\ i = 1 /\
  table_get (Table (keys t) [0; 0]) 0 = Some acc0 /\ table_get (Table (keys t) [0; 0]) i = Some acc1 /\
  account_spending_key N (N * list N) N ex_derive ex_from acc1 = account_spending_key N (N * list N) N ex_derive ex_from acc0 /\
  account_address N (N * list N) N N N ex_derive ex_from N.add acc1 0 = account_address N (N * list N) N N N ex_derive ex_from N.add acc0 0 /\
  collection_spending_key N (N * list N) N ex_derive ex_from (keys t) i <> account_spending_key N (N * list N) N ex_derive ex_from acc1.
Proof.
  exists (Table (KeySecret N Manta 5) [0]), 1, (Account (KeySecret N Manta 5) 0), (Account (KeySecret N Manta 5) 0).
  split; [apply made_new; reflexivity|]. vm_compute. repeat split; discriminate.
Qed.

(** The keys of an account are those of its index in its collection, also for indices written with
    [get_mut]. *)
Theorem c82_account_keys seed xprv spending parameters address
  (derive : seed -> list N -> option xprv) (from_bytes : xprv -> spending)
  (addr : parameters -> spending -> address) (t : table (key_secret seed)) a acc c s i x p :
  table_get t a = Some acc -> keys t = KeySecret seed c s -> map_get (accounts t) a = Some i -> i < 2 ^ 31 ->
  derive s (bip44 (registered c) i) = Some x ->
  account_spending_key seed xprv spending derive from_bytes acc = Ok (from_bytes x) /\
  account_address seed xprv spending parameters address derive from_bytes addr acc p = Ok (addr p (from_bytes x)).
Proof.
  intros T K A I D. unfold table_get in T. rewrite A, K in T. injection T as <-.
  unfold account_spending_key, account_address, collection_address. cbn [key index].
  rewrite (c82_spending_key _ _ _ derive from_bytes c s i x I D). split; reflexivity.
Qed.
Example ex_c82_account_keys :
  table_get (Table (KeySecret N Manta 5) [0; 3]) 1 = Some (Account (KeySecret N Manta 5) 3) /\
  account_spending_key N (N * list N) N ex_derive ex_from (Account (KeySecret N Manta 5) 3) <>
  account_spending_key N (N * list N) N ex_derive ex_from (Account (KeySecret N Manta 5) 4).
Proof. split; [reflexivity|vm_compute; discriminate]. Qed.

(** With a map that stores each index at its own place the accounts would have their own keys. *)
Theorem c82_own {K} (k : K) m a : (forall i j, map_get m i = Some j -> j = i) -> map_get m a <> None ->
  table_get (Table k m) a = Some (Account k a).
Proof.
  intros H G. unfold table_get. cbn [accounts keys]. destruct (map_get m a) as [j|] eqn:E; [|contradiction].
  rewrite (H _ _ E). reflexivity.
Qed.
Example ex_c82_own : (forall i j, map_get [0; 1; 2] i = Some j -> j = i) /\ map_get [0; 1; 2] 2 <> None /\
  exists m, map_set [0; 0] 1 1 = Some m /\ m = [0; 1].
Proof.
  split; [|split; [discriminate|exists [0; 1]; split; reflexivity]].
  intros i j H. unfold map_get in H. destruct (N.to_nat i) as [|[|[|n]]] eqn:E; cbn in H;
    try (injection H as <-; lia); destruct n; discriminate.
Qed.

Print Assumptions c82_path.
Print Assumptions c82_path_injective.
Print Assumptions c82_spending_key.
Print Assumptions c82_range_refuted.
Print Assumptions c82_range.
Print Assumptions c82_create.
Print Assumptions c82_create_total.
Print Assumptions c82_exists.
Print Assumptions c82_write.
Print Assumptions c82_default.
Print Assumptions c82_same.
Print Assumptions c82_accounts_refuted.
Print Assumptions c82_account_keys.
Print Assumptions c82_own.
