(** Moving public balances. *)
From Coq Require Import List Arith NArith Bool Lia.
From Verif Require Import MtModel CkModel LgModel LgSpec LgLemmas.
Import ListNotations.
Open Scope N_scope.

Lemma mget_mset {V} (m : list (N * V)) k v k' :
  mget (mset m k v) k' = if N.eqb k k' then Some v else mget m k'.
Proof.
  induction m as [|[k0 v0] m IH]; cbn [mset mget].
  - destruct (N.eqb_spec k k'); reflexivity.
  - destruct (N.eqb_spec k0 k) as [->|Hk]; cbn [mget].
    + destruct (N.eqb_spec k k'); reflexivity.
    + rewrite IH. destruct (N.eqb_spec k0 k') as [->|]; [|reflexivity].
      destruct (N.eqb_spec k k'); [congruence|reflexivity].
Qed.

Lemma amount_cons a x l : amount_of a (x :: l) = (if fst x =? a then snd x else 0) + amount_of a l.
Proof. unfold amount_of. cbn [filter]. destruct (N.eqb (fst x) a); unfold nsum; cbn [map fold_right]; lia. Qed.

Lemma amount_mset m k b v id : mget m k = b ->
  amount_of id (mset m k v) + (if k =? id then match b with Some b => b | None => 0 end else 0) =
  amount_of id m + (if k =? id then v else 0).
Proof.
  intros <-. induction m as [|[k0 v0] m IH]; cbn [mset mget].
  - rewrite amount_cons. cbn [fst snd]. unfold amount_of. cbn. destruct (k =? id); lia.
  - destruct (N.eqb_spec k0 k) as [->|Hk].
    + rewrite !amount_cons. cbn [fst snd]. destruct (k =? id); lia.
    + rewrite !amount_cons. cbn [fst snd]. lia.
Qed.

Section Bal.
Context {CM ON UT NT LD ID : Type}.
Variable ovchk : bool.
Notation lg := (ledger CM ON UT NT LD ID).

Lemma supply_mset (L : lg) a m m' id : mget (g_accounts L) a = Some m ->
  supply (with_accounts L (mset (g_accounts L) a m')) id + amount_of id m =
  supply L id + amount_of id m'.
Proof.
  unfold supply, with_accounts. cbn [g_accounts]. generalize (g_accounts L) as acc. clear L.
  induction acc as [|[a0 m0] acc IH]; intro E; cbn [mget] in E; [discriminate|].
  cbn [mset]. destruct (N.eqb_spec a0 a) as [->|Ha].
  - injection E as ->. unfold nsum; cbn [map fold_right snd]. lia.
  - unfold nsum; cbn [map fold_right snd]. specialize (IH E). unfold nsum in IH. lia.
Qed.

Lemma balance_mset (L : lg) a m id b' a' id' : mget (g_accounts L) a = Some m ->
  balance (with_accounts L (mset (g_accounts L) a (mset m id b'))) a' id' =
  if (a =? a') && (id =? id') then b' else balance L a' id'.
Proof.
  intro E. unfold balance, public_balance, with_accounts. cbn [g_accounts]. rewrite mget_mset.
  destruct (N.eqb_spec a a') as [Ha|Ha]; [subst a'|]; [|reflexivity]. rewrite mget_mset, E.
  destruct (N.eqb_spec id id'); reflexivity.
Qed.

Lemma accounts_mset (L : lg) a m m' a' : mget (g_accounts L) a = Some m ->
  ((exists x, mget (g_accounts (with_accounts L (mset (g_accounts L) a m'))) a' = Some x) <->
   (exists x, mget (g_accounts L) a' = Some x)).
Proof.
  intro E. cbn [with_accounts g_accounts]. rewrite mget_mset. destruct (N.eqb_spec a a') as [Ha|Ha]; [subst a'|]; [|reflexivity].
  split; eauto.
Qed.

(** ** Debits *)

Definition moved_out (L L' : lg) (id : N) (l : list (N * N)) : Prop :=
  (forall a id', balance L a id' = balance L' a id' + (if id =? id' then amount_of a l else 0)) /\
  (forall id', supply L id' = supply L' id' + (if id =? id' then nsum (map snd l) else 0)) /\
  (forall a, (exists x, mget (g_accounts L') a = Some x) <-> (exists x, mget (g_accounts L) a = Some x)).

Lemma debit_all_exact id srcs : forall (L L' : lg),
  ovchk = true \/ (forall a, amount_of a srcs <= balance L a id) ->
  debit_all ovchk L id srcs = (L', ROk tt) -> moved_out L L' id srcs.
Proof.
  induction srcs as [|[a v] srcs IH]; intros L L' HO E; cbn [debit_all] in E.
  - injection E as <-. split; [|split].
    + intros a id'. unfold amount_of. cbn. destruct (id =? id'); lia.
    + intros id'. cbn. destruct (id =? id'); lia.
    + intro a. reflexivity.
  - destruct (mget (g_accounts L) a) as [m|] eqn:Em; [|discriminate].
    destruct (mget m id) as [b|] eqn:Eb; [|discriminate].
    assert (Bal : balance L a id = b) by (unfold balance, public_balance; rewrite Em, Eb; reflexivity).
    destruct (vsub ovchk b v) as [b'|] eqn:Ev; [|discriminate].
    assert (Hv : v <= b /\ b' = b - v).
    { unfold vsub in Ev. destruct (N.leb_spec v b); [injection Ev as <-; auto|].
      destruct HO as [->|HO]; [discriminate|]. specialize (HO a). rewrite amount_cons in HO.
      cbn [fst snd] in HO. rewrite N.eqb_refl in HO. lia. }
    destruct Hv as [Hv ->].
    set (L1 := with_accounts L (mset (g_accounts L) a (mset m id (b - v)))) in *.
    assert (B1 : forall a' id', balance L1 a' id' = if (a =? a') && (id =? id') then b - v else balance L a' id')
      by (intros; apply balance_mset; exact Em).
    destruct (IH L1 L') as (A & B & C); [|exact E|].
    + destruct HO as [HO|HO]; [left; exact HO|]. right. intro a'. specialize (HO a'). rewrite amount_cons in HO.
      cbn [fst snd] in HO. rewrite B1, N.eqb_refl, andb_true_r. destruct (N.eqb_spec a a') as [Ha|Ha]; [subst a'|]; lia.
    + split; [|split].
      * intros a' id'. specialize (A a' id'). rewrite B1 in A. rewrite amount_cons. cbn [fst snd].
        destruct (N.eqb_spec a a') as [Ha|Ha]; [subst a'|]; cbn [andb] in A; (destruct (N.eqb_spec id id') as [Hi|Hi]; [subst id'|]); lia.
      * intro id'. specialize (B id'). pose proof (supply_mset L a m (mset m id (b - v)) id' Em) as Sp.
        fold L1 in Sp. pose proof (amount_mset m id (Some b) (b - v) id' Eb) as Am.
        unfold nsum; cbn [map fold_right snd]. unfold nsum in B. destruct (id =? id'); lia.
      * intro a'. rewrite C. apply (accounts_mset L a m (mset m id (b - v)) a' Em).
Qed.

Lemma debit_all_ok id srcs : forall L : lg,
  (forall a, amount_of a srcs <= balance L a id) ->
  (forall a v, In (a, v) srcs -> exists b, public_balance L a id = Some b) ->
  exists L', debit_all ovchk L id srcs = (L', ROk tt).
Proof.
  induction srcs as [|[a v] srcs IH]; intros L HO HE; cbn [debit_all].
  - eauto.
  - destruct (HE a v) as (b & Pb); [left; reflexivity|]. pose proof Pb as Pb'. unfold public_balance in Pb'.
    destruct (mget (g_accounts L) a) as [m|] eqn:Em; [|discriminate]. rewrite Pb'.
    assert (Hv : v <= b).
    { specialize (HO a). rewrite amount_cons in HO. cbn [fst snd] in HO. rewrite N.eqb_refl in HO.
      unfold balance in HO. rewrite Pb in HO. lia. }
    unfold vsub. destruct (N.leb_spec v b); [|lia].
    apply IH.
    + intro a'. specialize (HO a'). rewrite amount_cons in HO. cbn [fst snd] in HO.
      rewrite (balance_mset L a m id (b - v) a' id Em), N.eqb_refl, andb_true_r.
      destruct (N.eqb_spec a a') as [Ha|Ha]; [subst a'|]; [|lia]. unfold balance in HO. rewrite Pb in HO. lia.
    + intros a' v' I. destruct (HE a' v') as (b2 & P2); [right; exact I|].
      unfold public_balance, with_accounts. cbn [g_accounts]. rewrite mget_mset.
      destruct (N.eqb_spec a a') as [Ha|Ha]; [subst a'|]; [rewrite mget_mset, N.eqb_refl; eauto|].
      unfold public_balance in P2. eauto.
Qed.

(** ** Credits *)

Definition moved_in (L L' : lg) (id : N) (l : list (N * N)) : Prop :=
  (forall a id', balance L' a id' = balance L a id' + (if id =? id' then amount_of a l else 0)) /\
  (forall id', supply L' id' = supply L id' + (if id =? id' then nsum (map snd l) else 0)) /\
  (forall a, (exists x, mget (g_accounts L') a = Some x) <-> (exists x, mget (g_accounts L) a = Some x)).

Lemma credit_all_exact id snks : forall (L L' : lg),
  ovchk = true \/ (forall a, balance L a id + amount_of a snks < u128) ->
  credit_all ovchk L id snks = (L', ROk tt) -> moved_in L L' id snks.
Proof.
  induction snks as [|[a v] snks IH]; intros L L' HO E; cbn [credit_all] in E.
  - injection E as <-. split; [|split].
    + intros a id'. unfold amount_of. cbn. destruct (id =? id'); lia.
    + intros id'. cbn. destruct (id =? id'); lia.
    + intro a. reflexivity.
  - destruct (mget (g_accounts L) a) as [m|] eqn:Em; [|discriminate].
    set (b := match mget m id with Some b => b | None => 0 end) in *.
    assert (Bal : balance L a id = b) by (unfold balance, public_balance; rewrite Em; reflexivity).
    destruct (vadd ovchk b v) as [b'|] eqn:Ev; [|discriminate].
    assert (Hv : b' = b + v).
    { unfold vadd in Ev. destruct (N.ltb_spec (b + v) u128); [injection Ev as <-; auto|].
      destruct HO as [->|HO]; [discriminate|]. specialize (HO a). rewrite amount_cons in HO.
      cbn [fst snd] in HO. rewrite N.eqb_refl in HO. lia. }
    subst b'.
    set (L1 := with_accounts L (mset (g_accounts L) a (mset m id (b + v)))) in *.
    assert (B1 : forall a' id', balance L1 a' id' = if (a =? a') && (id =? id') then b + v else balance L a' id')
      by (intros; apply balance_mset; exact Em).
    destruct (IH L1 L') as (A & B & C); [|exact E|].
    + destruct HO as [HO|HO]; [left; exact HO|]. right. intro a'. specialize (HO a'). rewrite amount_cons in HO.
      cbn [fst snd] in HO. rewrite B1, N.eqb_refl, andb_true_r. destruct (N.eqb_spec a a') as [Ha|Ha]; [subst a'|]; lia.
    + split; [|split].
      * intros a' id'. specialize (A a' id'). rewrite B1 in A. rewrite amount_cons. cbn [fst snd].
        destruct (N.eqb_spec a a') as [Ha|Ha]; [subst a'|]; cbn [andb] in A; (destruct (N.eqb_spec id id') as [Hi|Hi]; [subst id'|]); lia.
      * intro id'. specialize (B id'). pose proof (supply_mset L a m (mset m id (b + v)) id' Em) as Sp.
        fold L1 in Sp. pose proof (amount_mset m id (mget m id) (b + v) id' eq_refl) as Am. fold b in Am.
        unfold nsum; cbn [map fold_right snd]. unfold nsum in B. destruct (id =? id'); lia.
      * intro a'. rewrite C. apply (accounts_mset L a m (mset m id (b + v)) a' Em).
Qed.

Lemma credit_all_ok id snks : forall L : lg,
  (forall a, In a (map fst snks) -> balance L a id + amount_of a snks < u128) ->
  (forall a, In a (map fst snks) -> exists m, mget (g_accounts L) a = Some m) ->
  exists L', credit_all ovchk L id snks = (L', ROk tt).
Proof.
  induction snks as [|[a v] snks IH]; intros L HO HE; cbn [credit_all].
  - eauto.
  - destruct (HE a) as (m & Em); [left; reflexivity|]. rewrite Em.
    set (b := match mget m id with Some b => b | None => 0 end) in *.
    assert (Bal : balance L a id = b) by (unfold balance, public_balance; rewrite Em; reflexivity).
    assert (Hv : b + v < u128).
    { specialize (HO a (or_introl eq_refl)). rewrite amount_cons in HO. cbn [fst snd] in HO. rewrite N.eqb_refl in HO. lia. }
    unfold vadd. destruct (N.ltb_spec (b + v) u128); [|lia].
    apply IH.
    + intros a' I. specialize (HO a' (or_intror I)). rewrite amount_cons in HO. cbn [fst snd] in HO.
      rewrite (balance_mset L a m id (b + v) a' id Em), N.eqb_refl, andb_true_r.
      destruct (N.eqb_spec a a') as [Ha|Ha]; [subst a'|]; lia.
    + intros a' I. apply (accounts_mset L a m (mset m id (b + v)) a' Em). apply HE. right. exact I.
Qed.

(** ** Both *)

Lemma update_exact (L L' : lg) id srcs snks :
  (forall a, amount_of a srcs <= balance L a id) ->
  ovchk = true \/ (forall a, balance L a id + amount_of a snks < u128) ->
  update_public_balances ovchk L id srcs snks = (L', ROk tt) -> moved L L' id srcs snks.
Proof.
  intros HS HK. unfold update_public_balances.
  destruct (debit_all ovchk L id srcs) as [L1 r] eqn:E. destruct r as [[]| |]; try discriminate.
  intro E'. destruct (debit_all_exact id srcs L L1 (or_intror HS) E) as (A & B & _).
  destruct (credit_all_exact id snks L1 L') as (A' & B' & _); [|exact E'|].
  { destruct HK as [HK|HK]; [left; exact HK|]. right. intro a. specialize (HK a). specialize (A a id).
    rewrite N.eqb_refl in A. lia. }
  split; [|split; [|split]].
  - intro a. specialize (A a id). specialize (A' a id). rewrite N.eqb_refl in *. lia.
  - intros a id' Hi. specialize (A a id'). specialize (A' a id'). destruct (N.eqb_spec id id'); [congruence|]. lia.
  - specialize (B id). specialize (B' id). rewrite N.eqb_refl in *. lia.
  - intros id' Hi. specialize (B id'). specialize (B' id'). destruct (N.eqb_spec id id'); [congruence|]. lia.
Qed.

Lemma update_ok (L : lg) id srcs snks :
  (forall a, amount_of a srcs <= balance L a id) ->
  (forall a v, In (a, v) srcs -> exists b, public_balance L a id = Some b) ->
  (forall a, In a (map fst snks) -> balance L a id + amount_of a snks < u128) ->
  (forall a, In a (map fst snks) -> exists m, mget (g_accounts L) a = Some m) ->
  exists L', update_public_balances ovchk L id srcs snks = (L', ROk tt).
Proof.
  intros HS HE HK HA. unfold update_public_balances.
  destruct (debit_all_ok id srcs L HS HE) as (L1 & E). rewrite E.
  destruct (debit_all_exact id srcs L L1 (or_intror HS) E) as (A & _ & C).
  apply credit_all_ok.
  - intros a I. specialize (HK a I). specialize (A a id). rewrite N.eqb_refl in A. lia.
  - intros a I. apply C. apply HA. exact I.
Qed.

End Bal.
