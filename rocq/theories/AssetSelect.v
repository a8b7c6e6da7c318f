(** Proofs about coin selection. *)
From Coq Require Import List NArith Arith Bool Lia.
From Verif Require Import AssetModel AssetSpec.
Import ListNotations.
Open Scope N_scope.

Lemma am_coins_eq m id : am_coins m id = coins m id.
Proof.
  unfold am_coins, am_asset_vector, coins, amap, asset in *. induction m as [|[k l] m IH]; auto.
  cbn [flat_map fst snd]. rewrite filter_app, map_app, IH. f_equal. clear.
  induction l as [|[i v] l IH]; auto. cbn [map filter flat_map fst snd].
  rewrite (andb_comm (i =? id)). destruct (negb (v =? 0) && (i =? id)); cbn [map app fst snd]; rewrite IH; auto.
Qed.

Lemma coin_total_app a b : coin_total (a ++ b) = coin_total a + coin_total b.
Proof. unfold coin_total. induction a; cbn [app map sumv]; lia. Qed.
Lemma coin_total_one k v : coin_total [(k, v)] = v.
Proof. unfold coin_total. cbn. lia. Qed.
Lemma coin_total_in c l : In c l -> snd c <= coin_total l.
Proof. unfold coin_total. induction l; cbn; intros []; subst; [lia|]. apply IHl in H. lia. Qed.

Lemma sublist_nil {A} (l : list A) : sublist [] l.
Proof. induction l; constructor; auto. Qed.
Lemma sublist_refl {A} (l : list A) : sublist l l.
Proof. induction l; [apply sub_nil|apply sub_take; auto]. Qed.
Lemma sublist_app {A} (a b c d : list A) : sublist a b -> sublist c d -> sublist (a ++ c) (b ++ d).
Proof. induction 1; cbn; intro; [auto|apply sub_skip; auto|apply sub_take; auto]. Qed.
Lemma sublist_in1 {A} (x : A) l : In x l -> sublist [x] l.
Proof. induction l; intros []; subst; [apply sub_take, sublist_nil|apply sub_skip; auto]. Qed.
Lemma sublist_total a b : sublist a b -> coin_total a <= coin_total b.
Proof. unfold coin_total. induction 1; cbn [map sumv]; lia. Qed.

Section Sel.
Variable req : N.
Hypothesis Hreq : 0 < req.

(** What a good selection among [all] is. *)
Definition good (all : list (N * N)) (r : selection) : Prop :=
  (coin_total all < req /\ r = sel_default) \/
  (req <= coin_total all /\ snd r <> [] /\ sublist (snd r) all /\
   coin_total (snd r) = req + fst r /\
   ((exists k, In (k, req) all) -> exists k, r = (0, [(k, req)])) /\
   ((forall k, ~ In (k, req) all) -> (exists c, In c all /\ req < snd c) ->
      exists c, In c all /\ req < snd c /\ r = (snd c - req, [c]) /\ forall d, In d all -> req < snd d -> snd c <= snd d)).

Record inv (pre : list (N * N)) (sum : N) (values : list (N * N)) (best : option (N * N)) : Prop := {
  i_sum : sum = coin_total values;
  i_sub : sublist values pre;
  i_noeq : forall k, ~ In (k, req) pre;
  i_lt : sum < req -> coin_total pre <= sum \/ exists c, In c pre /\ req < snd c;
  i_best : match best with
           | None => forall c, In c pre -> snd c < req
           | Some b => In b pre /\ req < snd b /\ forall d, In d pre -> req < snd d -> snd b <= snd d
           end }.

Lemma sel_loop_spec cs : forall pre sum values best, inv pre sum values best ->
  coin_total (pre ++ cs) <= vmax ->
  exists r, sel_loop req cs sum values best = Some r /\ good (pre ++ cs) r.
Proof.
  induction cs as [|[k v] cs IH]; intros pre sum values best I B; cbn [sel_loop].
  - rewrite app_nil_r in *. destruct I as [I1 I2 I3 I5 I6]. destruct best as [[bk bv]|].
    + destruct I6 as (J1 & J2 & J3). cbn [snd] in *. eexists. split; [reflexivity|]. right.
      pose proof (coin_total_in _ _ J1) as T. cbn [snd] in T. split; [lia|]. cbn [fst snd].
      split; [discriminate|]. split; [apply sublist_in1; auto|]. split; [rewrite coin_total_one; lia|].
      split; [intros [k Hk]; destruct (I3 k Hk)|]. intros _ _. exists (bk, bv). auto.
    + destruct (N.ltb_spec sum req).
      * eexists. split; [reflexivity|]. left. split; auto.
        destruct (I5 H) as [Q|(c & C1 & C2)]; [lia|]. pose proof (I6 c C1). lia.
      * eexists. split; [reflexivity|]. right. cbn [fst snd]. pose proof (sublist_total _ _ I2).
        split; [lia|]. split.
        { intro E. subst values. unfold coin_total in I1. cbn in I1. lia. }
        split; auto. split; [lia|]. split; [intros [k Hk]; destruct (I3 k Hk)|].
        intros _ (c & C1 & C2). pose proof (I6 c C1). lia.
  - pose proof I as [I1 I2 I3 I5 I6]. replace (pre ++ (k, v) :: cs) with ((pre ++ [(k, v)]) ++ cs) in * by (rewrite <- app_assoc; auto).
    assert (S1 : sublist values (pre ++ [(k, v)])).
    { rewrite <- (app_nil_r values). apply sublist_app; auto. apply sublist_nil. }
    destruct (N.ltb_spec req v) as [H|H].
    + apply IH; auto. split; auto.
      * intros k' Hk. apply in_app_or in Hk. destruct Hk as [Hk|[E|[]]]; [destruct (I3 _ Hk)|]. injection E as -> ->. lia.
      * intro Hs. right. exists (k, v). split; [apply in_or_app; cbn; auto|auto].
      * destruct best as [[bk bv]|]; cbn [snd] in *.
        -- destruct I6 as (J1 & J2 & J3). destruct (N.leb_spec bv v); cbn [snd].
           ++ split; [apply in_or_app; auto|]. split; auto. intros d Hd Hr. apply in_app_or in Hd.
              destruct Hd as [Hd|[<-|[]]]; auto.
           ++ split; [apply in_or_app; cbn; auto|]. split; auto. intros d Hd Hr. apply in_app_or in Hd.
              destruct Hd as [Hd|[<-|[]]]; [|cbn; lia]. specialize (J3 d Hd Hr). lia.
        -- split; [apply in_or_app; cbn; auto|]. split; auto. intros d Hd Hr. apply in_app_or in Hd.
           destruct Hd as [Hd|[<-|[]]]; [|cbn; lia]. specialize (I6 d Hd). lia.
    + destruct (N.eqb_spec v req) as [->|Hne].
      * eexists. split; [reflexivity|]. right. cbn [fst snd].
        assert (In (k, req) ((pre ++ [(k, req)]) ++ cs)) by (rewrite <- app_assoc; apply in_or_app; cbn; auto).
        pose proof (coin_total_in _ _ H0) as Q. cbn [snd] in Q.
        split; auto. split; [discriminate|]. split; [apply sublist_in1; auto|]. split; [rewrite coin_total_one; lia|].
        split; [intros _; exists k; auto|]. intros N. destruct (N k H0).
      * assert (NE : forall k', ~ In (k', req) (pre ++ [(k, v)])).
        { intros k' Hk. apply in_app_or in Hk. destruct Hk as [Hk|[E|[]]]; [destruct (I3 _ Hk)|]. injection E as -> ->. lia. }
        assert (BE : match best with
           | None => forall c, In c (pre ++ [(k, v)]) -> snd c < req
           | Some b => In b (pre ++ [(k, v)]) /\ req < snd b /\ forall d, In d (pre ++ [(k, v)]) -> req < snd d -> snd b <= snd d
           end).
        { destruct best as [b|].
          - destruct I6 as (J1 & J2 & J3). split; [apply in_or_app; auto|]. split; auto. intros d Hd Hr.
            apply in_app_or in Hd. destruct Hd as [Hd|[<-|[]]]; auto. cbn [snd] in Hr. lia.
          - intros c Hc. apply in_app_or in Hc. destruct Hc as [Hc|[<-|[]]]; auto. cbn [snd]. lia. }
        destruct (N.ltb_spec sum req) as [Hs|Hs].
        -- assert (Bs : sum + v <= vmax).
           { pose proof (sublist_total _ _ I2). rewrite !coin_total_app, coin_total_one in B. lia. }
           destruct (N.ltb_spec vmax (sum + v)); [lia|]. apply IH; auto. split; auto.
           ++ rewrite coin_total_app, coin_total_one. lia.
           ++ apply sublist_app; auto. apply sublist_refl.
           ++ intro Hs'. destruct (I5 Hs) as [Q|(c & C1 & C2)].
              ** left. rewrite coin_total_app, coin_total_one. lia.
              ** right. exists c. split; auto. apply in_or_app; auto.
        -- apply IH; auto. split; auto. intro. lia.
Qed.
End Sel.
