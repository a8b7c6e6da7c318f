(** * Selection from iterators in parallel: properties (C87) *)
From Coq Require Import List Arith Bool Lia.
From Verif Require Import SaModel SaSpec SaLemmas SaInv.
Import ListNotations.

(** Sorting and removing one by one removes exactly the receivers at the indices, and does not panic. *)
Theorem c87_drop {T} ds (l : list T) : Forall (fun d => d < length l) ds -> drop_receivers ds l = Some (without 0 ds l).
Proof. apply drop_without. Qed.
Example ex_c87_drop : Forall (fun d => d < length [10; 11; 12; 13]) [0; 2; 0] /\
  drop_receivers [0; 2; 0] [10; 11; 12; 13] = Some [11; 13].
Proof. split; [repeat constructor|reflexivity]. Qed.

Section Props.
Context {A : Type}.
Variables iterators threads consumer : nat.
Variable items : nat -> list A.
Notation exec := (@exec A iterators threads consumer).
Notation run := (@run A iterators threads consumer).
Notation start := (spawned iterators items).

Lemma source_exec l s s' : Inv iterators items s -> exec l s = Some s' ->
  Forall (fun x => fst x < iterators) (returned s) -> Forall (fun x => fst x < iterators) (returned s').
Proof.
  intros V E F. destruct l; cbn [SaModel.exec] in E.
  - destruct (listening s); try discriminate. destruct (_ <? _); [|discriminate]. now injection E as <-.
  - destruct (listening s); try discriminate. destruct (at_place s i); try discriminate. destruct (_ <? _); [|discriminate]. now injection E as <-.
  - destruct (listening s); try discriminate. destruct (forallb _ _); [|discriminate]. now injection E as <-.
  - destruct (at_place s i); try discriminate. destruct (_ && _); [|discriminate]. now injection E as <-.
  - destruct (at_place s i); try discriminate. destruct (_ <? _); [|discriminate]. injection E as <-.
    unfold send_next. destruct (left s i); [exact F|]. destruct (member _ _); exact F.
  - destruct (at_place s i); try discriminate. destruct (_ <? _); [|discriminate]. now injection E as <-.
  - destruct (_ || _); [discriminate|]. unfold poll in E. destruct (nth_error (receivers s) j) as [c|] eqn:Ej; [|discriminate].
    destruct (channel s c) as [|x b].
    + destruct (gone _); [|now injection E as <-]. destruct (_ =? _); now injection E as <-.
    + destruct (drop_receivers _ _); [|discriminate]. injection E as <-. cbn [returned]. apply Forall_app. split; auto.
      constructor; [|constructor]. apply (i_range iterators items s V). eapply nth_error_In; eauto.
  - destruct (receivers s); [|discriminate]. destruct (ended s); [discriminate|]. now injection E as <-.
Qed.

(** Whatever the threads do: what was returned came from the iterators, for each of them from its
    beginning, in its order and without gaps. *)
Theorem c87_order ls s : run ls start = Some s ->
  Forall (fun x => fst x < iterators) (returned s) /\
  forall i, i < iterators -> exists rest, from i (returned s) ++ rest = items i.
Proof.
  intros E. split.
  - assert (G : forall ls s0 s, Inv iterators items s0 -> Forall (fun x => fst x < iterators) (returned s0) ->
      run ls s0 = Some s -> Forall (fun x => fst x < iterators) (returned s)).
    { clear. induction ls as [|l ls IH]; intros s0 s V F E; cbn [SaModel.run] in E; [now injection E as <-|].
      destruct (exec l s0) as [t|] eqn:X; [|discriminate]. eapply IH; [| |exact E].
      - eapply inv_exec; eauto.
      - eapply source_exec; eauto. }
    apply (G ls start s); auto; [apply inv_spawned|constructor].
  - intros i B. exists (channel s i ++ left s i). apply (i_items iterators items s); auto.
    eapply inv_run; [apply inv_spawned|exact E].
Qed.

(** [None] is returned only when everything has been. *)
Theorem c87_complete ls s : run ls start = Some s -> ended s = true -> forall i, i < iterators -> from i (returned s) = items i.
Proof.
  intros E Ed i B. assert (V : Inv iterators items s) by (eapply inv_run; [apply inv_spawned|exact E]).
  destruct (i_out _ _ s V i B) as [G C]; [rewrite (i_end _ _ s V Ed); intros []|].
  rewrite <- (i_items _ _ s V i B), C, (i_gone _ _ s V i B G). now rewrite !app_nil_r.
Qed.

(** No turn of the loop panics, whichever of the channels that are left is ready. *)
Theorem c87_no_panic ls s j : run ls start = Some s -> ended s = false -> j < length (receivers s) ->
  ~ In j (drop_indices s) -> exists s', exec (Poll j) s = Some s'.
Proof.
  intros E Ed B N. assert (V : Inv iterators items s) by (eapply inv_run; [apply inv_spawned|exact E]).
  cbn [SaModel.exec]. rewrite Ed. destruct (member j (drop_indices s)) eqn:M; [apply member_in in M; contradiction|].
  cbn [orb]. unfold poll. destruct (nth_error (receivers s) j) as [c|] eqn:Ej; [|apply nth_error_None in Ej; lia].
  destruct (channel s c).
  - destruct (gone _); [|eauto]. destruct (_ =? _); eauto.
  - rewrite drop_without by exact (i_bound _ _ s V). eauto.
Qed.

(** With two threads beside that of the consumer there is no deadlock: until [None] is returned something can happen. *)
Theorem c87_live ls s : consumer + 2 <= threads -> run ls start = Some s -> ended s = false ->
  exists l s', exec l s = Some s' /\ s' <> s.
Proof.
  intros T E Ed. apply (can_go_on iterators threads consumer items); auto. eapply inv_run; [apply inv_spawned|exact E].
Qed.

(** And this comes to an end: the number of things that happen is bounded. (Finding a channel for which there is nothing
    to do is not counted.) *)
Fixpoint active (ls : list label) (s : state) : Prop :=
  match ls with
  | [] => True
  | l :: ls => match exec l s with Some s' => s' <> s /\ active ls s' | None => False end
  end.
Theorem c87_finite ls : active ls start ->
  length ls <= 7 * list_sum (map (fun i => length (items i)) (seq 0 iterators)) + 4 * iterators + 3.
Proof.
  intros Ac.
  assert (G : forall ls s, Inv iterators items s -> active ls s -> length ls <= measure iterators s).
  { clear. induction ls as [|l ls IH]; intros s V Ac; cbn [length]; [lia|]. cbn [active] in Ac.
    destruct (exec l s) as [t|] eqn:X; [|contradiction]. destruct Ac as [N Ac].
    destruct (exec_less iterators threads consumer items l s t V X) as [->|L]; [contradiction|].
    specialize (IH t (inv_exec iterators threads consumer items l s t V X) Ac). lia. }
  specialize (G ls start (inv_spawned iterators items) Ac). unfold measure in G.
  cbn [spawned receivers drop_indices listening ended length listener_weight] in G. rewrite seq_length in G.
  assert (W : list_sum (map (weight start) (seq 0 iterators)) =
    7 * list_sum (map (fun i => length (items i)) (seq 0 iterators)) + 3 * iterators).
  { generalize 0 at 1 3. clear. induction iterators as [|n IH]; intros k; [reflexivity|]. cbn [seq map].
    change (list_sum (?a :: ?l)) with (a + list_sum l). specialize (IH (S k)).
    change (map (weight (spawned (S n) items))) with (map (weight (spawned n items))). rewrite IH.
    unfold weight. cbn [spawned left channel at_place length place_weight]. lia. }
  lia.
Qed.

(** Never more threads are used than the pool has: a task takes one from its start until it is in the queue again or dropped. *)
Definition on_thread (p : place) : bool := match p with Running | Sent => true | _ => false end.
Definition threads_used (s : @state A) : nat :=
  consumer + (match listening s with Listening => 1 | _ => 0 end) +
  length (filter on_thread (map (at_place s) (seq 0 iterators))).
Lemma used_busy (s : @state A) : threads_used s = busy iterators consumer s.
Proof.
  unfold threads_used, busy. f_equal. induction (seq 0 iterators) as [|i l IH]; [reflexivity|]. cbn [map filter].
  change (list_sum (?a :: ?l)) with (a + list_sum l). rewrite <- IH. unfold runs, on_thread. destruct (at_place s i); reflexivity.
Qed.
Lemma busy_move (s : @state A) i p : i < iterators -> busy iterators consumer (move s i p) + runs (at_place s i) = busy iterators consumer s + runs p.
Proof.
  intros B. unfold busy. cbn [move listening at_place].
  pose proof (sum_at iterators (fun k => runs (at_place s k)) (fun k => runs (set (at_place s) i p k)) i B) as H.
  cbn beta in H. rewrite set_same in H. specialize (H ltac:(intros k N; now rewrite set_other)). lia.
Qed.
Lemma busy_exec l s s' : exec l s = Some s' -> busy iterators consumer s <= threads -> busy iterators consumer s' <= threads.
Proof.
  intros E L. destruct l; cbn [SaModel.exec] in E.
  - destruct (listening s) eqn:Ls; try discriminate. destruct (Nat.ltb_spec (busy iterators consumer s) threads) as [H|]; [|discriminate].
    injection E as <-. unfold busy in *. cbn [listen listening at_place]. rewrite Ls in H. lia.
  - destruct (listening s); try discriminate. destruct (at_place s i) eqn:P; try discriminate.
    destruct (Nat.ltb_spec i iterators) as [B|]; [|discriminate]. injection E as <-. pose proof (busy_move s i Spawned B). rewrite P in *. cbn [runs] in *. lia.
  - destruct (listening s) eqn:Ls; try discriminate. destruct (forallb _ _); [|discriminate]. injection E as <-.
    unfold busy in *. cbn [listen listening at_place]. rewrite Ls in L. lia.
  - destruct (at_place s i) eqn:P; try discriminate. destruct (Nat.ltb_spec i iterators) as [B|]; [|discriminate].
    destruct (Nat.ltb_spec (busy iterators consumer s) threads) as [H|]; [|discriminate]. injection E as <-.
    pose proof (busy_move s i Running B). rewrite P in *. cbn [runs] in *. lia.
  - destruct (at_place s i) eqn:P; try discriminate. destruct (Nat.ltb_spec i iterators) as [B|]; [|discriminate]. injection E as <-.
    unfold send_next. destruct (left s i) as [|x r].
    + pose proof (busy_move s i Gone B). rewrite P in *. cbn [runs] in *. lia.
    + destruct (member _ _).
      * pose proof (busy_move s i Sent B) as H. rewrite P in H. unfold busy in *. cbn [move listening at_place runs] in *. lia.
      * pose proof (busy_move s i Gone B) as H. rewrite P in H. unfold busy in *. cbn [move listening at_place runs] in *. lia.
  - destruct (at_place s i) eqn:P; try discriminate. destruct (Nat.ltb_spec i iterators) as [B|]; [|discriminate]. injection E as <-.
    pose proof (busy_move s i Queued B). rewrite P in *. cbn [runs] in *. lia.
  - destruct (_ || _); [discriminate|]. unfold poll in E. destruct (nth_error _ _) as [c|]; [|discriminate].
    destruct (channel s c).
    + destruct (gone _); [|injection E as <-; exact L]. destruct (_ =? _); injection E as <-; exact L.
    + destruct (drop_receivers _ _); [|discriminate]. injection E as <-. exact L.
  - destruct (receivers s); [|discriminate]. destruct (ended s); [discriminate|]. injection E as <-. exact L.
Qed.
Theorem c87_pool ls s : consumer <= threads -> run ls start = Some s -> threads_used s <= threads.
Proof.
  intros C E. rewrite used_busy.
  assert (G : forall ls (s0 s : @state A), busy iterators consumer s0 <= threads -> run ls s0 = Some s -> busy iterators consumer s <= threads).
  { clear. induction ls as [|l ls IH]; intros s0 s L E; cbn [SaModel.run] in E; [now injection E as <-|].
    destruct (exec l s0) as [t|] eqn:X; [|discriminate]. eapply IH; [|exact E]. eapply busy_exec; eauto. }
  apply (G ls start s); auto. unfold busy. cbn [spawned listening at_place]. rewrite sum_zero by reflexivity. lia.
Qed.

(** So when nothing more happens, everything has been returned. *)
Theorem c87_delivered ls s : consumer + 2 <= threads -> run ls start = Some s -> (forall l s', exec l s = Some s' -> s' = s) ->
  ended s = true /\ forall i, i < iterators -> from i (returned s) = items i.
Proof.
  intros T E St. destruct (ended s) eqn:Ed.
  - split; [reflexivity|]. exact (c87_complete ls s E Ed).
  - destruct (c87_live ls s T E Ed) as (l & s' & X & N). apply St in X. contradiction.
Qed.
End Props.

(** Two iterators, one of them empty, with three threads. *)
Definition two (i : nat) : list nat := match i with 0 => [5; 6] | _ => [] end.
Definition whole : list label :=
  [Listen; Take 1; Take 0; Start 0; Work 0; Requeue 0; Poll 0; Start 1; Work 1; Poll 1; Poll 0; Take 0; Start 0; Work 0; Poll 0;
   Requeue 0; Take 0; Start 0; Work 0; Poll 0; Close].
Definition summary (o : option (@state nat)) := option_map (fun s => (returned s, receivers s, drop_indices s, ended s)) o.
Example ex_c87_order : 1 + 2 <= 3 /\ summary (run 2 3 1 (firstn 11 whole) (spawned 2 two)) = Some ([(0, 5)], [0; 1], [1], false) /\
  summary (run 2 3 1 (firstn 15 whole) (spawned 2 two)) = Some ([(0, 5); (0, 6)], [0], [], false).
Proof. repeat split; try lia; vm_compute; reflexivity. Qed.
Example ex_c87_complete : summary (run 2 3 1 whole (spawned 2 two)) = Some ([(0, 5); (0, 6)], [], [], true).
Proof. vm_compute. reflexivity. Qed.
Example ex_c87_no_panic : exists s, run 2 3 1 (firstn 11 whole) (spawned 2 two) = Some s /\ ended s = false /\
  0 < length (receivers s) /\ ~ In 0 (drop_indices s) /\ In 1 (drop_indices s).
Proof. eexists. split; [vm_compute; reflexivity|]. cbn. repeat split; auto; try lia; intros [X|[]]; discriminate. Qed.
Example ex_c87_finite : active 2 3 1 [Listen; Take 0] (spawned 2 two).
Proof.
  cbn. split; [intros X; apply (f_equal listening) in X; discriminate|].
  split; [intros X; apply (f_equal (fun s => at_place s 0)) in X; discriminate|exact I].
Qed.
Example ex_c87_pool : option_map (threads_used 2 1) (run 2 3 1 (firstn 5 whole) (spawned 2 two)) = Some 3.
Proof. vm_compute. reflexivity. Qed.
Example ex_c87_delivered : exists s, run 2 3 1 whole (spawned 2 two) = Some s /\ forall l s', exec 2 3 1 l s = Some s' -> s' = s.
Proof.
  eexists. split; [cbn; reflexivity|]. intros l s' E. destruct l as [|[|[|i]]| |[|[|i]]|[|[|i]]|[|[|i]]|j|]; cbn in E; discriminate.
Qed.

(** With fewer threads there can be a deadlock: the consumer and the listener, which wait for channels, take all threads,
    and the task that has an item is never started. *)
Theorem c87_threads_refuted : exists ls s, run 1 2 1 ls (spawned 1 (fun _ => [5])) = Some s /\ ended s = false /\
  returned s = [] /\ forall l s', exec 1 2 1 l s = Some s' -> s' = s.
Proof.
  exists [Listen; Take 0]. eexists. split; [cbn; reflexivity|]. split; [reflexivity|]. split; [reflexivity|].
  intros l s' E. destruct l as [|[|i]| |[|i]|[|i]|[|i]|[|j]|]; cbn in E; try discriminate.
  - now injection E as <-.
  - destruct j; discriminate.
Qed.

Print Assumptions c87_drop.
Print Assumptions c87_order.
Print Assumptions c87_complete.
Print Assumptions c87_no_panic.
Print Assumptions c87_live.
Print Assumptions c87_finite.
Print Assumptions c87_pool.
Print Assumptions c87_delivered.
Print Assumptions c87_threads_refuted.
