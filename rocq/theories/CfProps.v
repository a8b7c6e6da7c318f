(** * The checkfile of the parameters: properties (C91) *)
From Coq Require Import List ZArith Lia Bool Arith.
From Verif Require Import CfModel.
Import ListNotations.
Local Open Scope Z_scope.

(** ** Specification: how the file is written, [b3sum] in generate_checkfile.sh *)
Definition hex_digit (n : Z) : Z := if n <? 10 then 48 + n else 87 + n.
Definition hex (bytes : list Z) : list Z := concat (map (fun b => [hex_digit (b / 16); hex_digit (b mod 16)]) bytes).
Definition write_line (e : list Z * list Z) : list Z := hex (snd e) ++ [32; 32] ++ fst e.
Definition write_file (entries : list (list Z * list Z)) : list Z := concat (map (fun e => write_line e ++ [10]) entries).
Definition good (e : list Z * list Z) : Prop :=
  length (snd e) = 32%nat /\ Forall (fun b => 0 <= b < 256) (snd e) /\
  (~ In 10 (fst e)) /\ (forall p, fst e <> p ++ [13]) /\ (forall p q, fst e <> p ++ [32; 32] ++ q).

Lemma digit_hex n : 0 <= n < 16 -> digit (hex_digit n) = Some n.
Proof.
  intros B. assert (C : In n [0; 1; 2; 3; 4; 5; 6; 7; 8; 9; 10; 11; 12; 13; 14; 15]) by (cbn; lia).
  cbn in C. repeat (destruct C as [<-|C]; [reflexivity|]). destruct C.
Qed.
Lemma hex_digit_range n : 0 <= n < 16 -> 48 <= hex_digit n <= 102.
Proof. intros B. unfold hex_digit. destruct (Z.ltb_spec n 10); lia. Qed.
Lemma nibbles b : 0 <= b < 256 -> 0 <= b / 16 < 16 /\ 0 <= b mod 16 < 16.
Proof. intros B. split; [split; [apply Z.div_pos; lia|apply Z.div_lt_upper_bound; lia]|apply Z.mod_pos_bound; lia]. Qed.
Lemma bytes_hex bytes : Forall (fun b => 0 <= b < 256) bytes -> bytes_of (hex bytes) = Some bytes.
Proof.
  induction 1 as [|b bytes B F IH]; [reflexivity|]. destruct (nibbles b B) as [H L].
  change (hex (b :: bytes)) with (hex_digit (b / 16) :: hex_digit (b mod 16) :: hex bytes). cbn [bytes_of].
  rewrite !digit_hex, IH by assumption. do 2 f_equal. pose proof (Z.div_mod b 16 ltac:(lia)). lia.
Qed.
Lemma hex_length bytes : length (hex bytes) = (2 * length bytes)%nat.
Proof. induction bytes as [|b bytes IH]; [reflexivity|]. unfold hex in *. cbn [map concat app length]. lia. Qed.
Lemma hex_range bytes : Forall (fun b => 0 <= b < 256) bytes -> Forall (fun c => 48 <= c <= 102) (hex bytes).
Proof.
  induction 1 as [|b bytes B F IH]; [constructor|]. destruct (nibbles b B) as [H L].
  change (hex (b :: bytes)) with (hex_digit (b / 16) :: hex_digit (b mod 16) :: hex bytes).
  constructor; [now apply hex_digit_range|]. constructor; [now apply hex_digit_range|exact IH].
Qed.

Lemma split_before a rest : Forall (fun c => 48 <= c <= 102) a -> forall current,
  split current (a ++ 32 :: 32 :: rest) = rev (rev a ++ current) :: split [] rest.
Proof.
  induction 1 as [|c a C F IH]; intros current; [reflexivity|].
  cbn [app]. cbn [split]. destruct (a ++ 32 :: 32 :: rest) as [|d t] eqn:Q; [destruct a; discriminate|].
  rewrite (proj2 (Z.eqb_neq c 32)) by lia. cbn [andb]. rewrite IH. cbn [rev]. now rewrite <- app_assoc.
Qed.
Lemma split_none p : (forall a b, p <> a ++ [32; 32] ++ b) -> forall current, split current p = [rev current ++ p].
Proof.
  induction p as [|c p IH]; intros N current; [cbn; now rewrite app_nil_r|].
  assert (N' : forall a b, p <> a ++ [32; 32] ++ b) by (intros a b ->; now apply (N (c :: a) b)).
  cbn [split]. destruct p as [|d p].
  - cbn. reflexivity.
  - destruct ((c =? 32) && (d =? 32)) eqn:Q.
    + apply andb_true_iff in Q. destruct Q as [Q1 Q2]. apply Z.eqb_eq in Q1, Q2. subst. now elim (N [] p).
    + rewrite IH by exact N'. cbn [rev]. now rewrite <- app_assoc.
Qed.
Lemma parse_written e : good e -> parse_line (write_line e) = Some e.
Proof.
  destruct e as [path c]. intros (L & B & _ & _ & S). cbn [fst snd] in *. unfold parse_line, write_line. cbn [fst snd app].
  rewrite split_before by now apply hex_range. rewrite app_nil_r, rev_involutive, split_none by exact S. cbn [rev app].
  unfold checksum_of. rewrite hex_length, L. cbn [Nat.eqb Nat.mul Nat.add]. now rewrite bytes_hex by exact B.
Qed.
Lemma lines_one l rest : ~ In 10 l -> forall current,
  lines current (l ++ 10 :: rest) = rev (strip (rev l ++ current)) :: lines [] rest.
Proof.
  induction l as [|c l IH]; intros N current; [reflexivity|]. cbn [app lines].
  rewrite (proj2 (Z.eqb_neq c 10)) by (intros ->; apply N; now left). rewrite IH by (intros I; apply N; now right).
  cbn [rev]. now rewrite <- app_assoc.
Qed.
Lemma strip_not l : (forall p, l <> p ++ [13]) -> strip (rev l) = rev l.
Proof.
  intros N. destruct (rev l) as [|c t] eqn:Q; [reflexivity|]. apply (f_equal (@rev Z)) in Q. rewrite rev_involutive in Q. cbn in Q.
  unfold strip. destruct (Z.eq_dec c 13) as [->|C]; [now elim (N (rev t))|]. 
  destruct c as [|c|c]; try reflexivity. do 4 (destruct c as [c|c|]; try reflexivity). now elim C.
Qed.
Lemma written_line e : good e -> ~ In 10 (write_line e) /\ (forall p, write_line e <> p ++ [13]).
Proof.
  destruct e as [path c]. intros (L & B & N & R & _). unfold write_line. cbn [fst snd] in *. split.
  - intros I. apply in_app_or in I. destruct I as [I|[I|[I|I]]]; [|discriminate|discriminate|now apply N].
    pose proof (hex_range _ B) as F. rewrite Forall_forall in F. specialize (F 10 I). lia.
  - intros p E. destruct path as [|x path] using rev_ind.
    + change (hex c ++ [32; 32] ++ []) with (hex c ++ [32] ++ [32]) in E. rewrite app_assoc in E. apply app_inj_tail in E. destruct E. discriminate.
    + rewrite !app_assoc in E. apply app_inj_tail in E. destruct E as [_ ->]. now elim (R path).
Qed.

(** What is written is read back: every entry, and of entries for the same path the last is found first. *)
Theorem c91_round_trip entries : Forall good entries -> parse_checkfile (write_file entries) = Some (rev entries).
Proof.
  intros F. unfold parse_checkfile. rewrite <- (app_nil_r (rev entries)). generalize (@nil (list Z * list Z)).
  induction F as [|e entries G F IH]; intros m; [reflexivity|].
  change (write_file (e :: entries)) with ((write_line e ++ [10]) ++ write_file entries). rewrite <- app_assoc. cbn [app].
  destruct (written_line e G) as [N R]. rewrite lines_one by exact N. rewrite app_nil_r, strip_not, rev_involutive by exact R.
  cbn [insert_all]. rewrite parse_written by exact G. rewrite IH. cbn [rev]. now rewrite <- app_assoc.
Qed.

(** Also when the last line has no line feed. *)
Theorem c91_open_end entries e : Forall good entries -> good e ->
  parse_checkfile (write_file entries ++ write_line e) = Some (e :: rev entries).
Proof.
  intros F G. unfold parse_checkfile. rewrite <- (app_nil_r (rev entries)). generalize (@nil (list Z * list Z)).
  induction F as [|a entries A F IH]; intros m.
  - cbn [write_file map concat app rev]. destruct (written_line e G) as [N _].
    assert (L : forall l current, ~ In 10 l -> rev l ++ current <> [] -> lines current l = [rev (rev l ++ current)]).
    { clear. induction l as [|c l IH]; intros current N E; cbn [lines].
      - cbn in *. destruct current; [congruence|reflexivity].
      - rewrite (proj2 (Z.eqb_neq c 10)) by (intros ->; apply N; now left).
        cbn [rev] in *. rewrite <- app_assoc in *. cbn [app] in *. apply IH; [intros I; apply N; now right|exact E]. }
    unfold write_file. cbn [map concat app]. rewrite (L (write_line e) []); [|exact N|].
    + rewrite app_nil_r, rev_involutive. cbn [insert_all]. now rewrite parse_written by exact G.
    + rewrite app_nil_r. intros H. apply (f_equal (@length Z)) in H. rewrite rev_length in H. unfold write_line in H.
      rewrite !app_length in H. cbn in H. lia.
  - change (write_file (a :: entries)) with ((write_line a ++ [10]) ++ write_file entries). rewrite <- !app_assoc. cbn [app].
    destruct (written_line a A) as [N R]. rewrite lines_one by exact N. rewrite app_nil_r, strip_not, rev_involutive by exact R.
    cbn [insert_all]. rewrite parse_written by exact A. rewrite IH. cbn [rev]. now rewrite <- app_assoc.
Qed.

Lemma split_join text : forall current, exists first more, split current text = first :: more /\
  concat (map (fun p => p ++ [32; 32]) (removelast (first :: more))) ++ last (first :: more) [] = rev current ++ text.
Proof.
  assert (G : forall n text current, (length text <= n)%nat -> exists first more, split current text = first :: more /\
    concat (map (fun p => p ++ [32; 32]) (removelast (first :: more))) ++ last (first :: more) [] = rev current ++ text).
  { clear. induction n as [|n IH]; intros text current L.
    - destruct text; [|cbn in L; lia]. exists (rev current), []. cbn. now rewrite app_nil_r.
    - destruct text as [|c t]; [exists (rev current), []; cbn; now rewrite app_nil_r|]. cbn [length] in L. cbn [split].
      destruct t as [|d t].
      + exists (rev (c :: current)), []. split; reflexivity.
      + destruct ((c =? 32) && (d =? 32)) eqn:Q.
        * apply andb_true_iff in Q. destruct Q as [Q1 Q2]. apply Z.eqb_eq in Q1, Q2. subst.
          destruct (IH t [] ltac:(cbn [length] in L; lia)) as (f & m & -> & E). exists (rev current), (f :: m). split; [reflexivity|].
          change (removelast (rev current :: f :: m)) with (rev current :: removelast (f :: m)).
          change (last (rev current :: f :: m) []) with (last (f :: m) (@nil Z)). cbn [map concat]. rewrite <- !app_assoc, E. reflexivity.
        * destruct (IH (d :: t) (c :: current) ltac:(lia)) as (f & m & -> & E). exists f, m. split; [reflexivity|].
          rewrite E. cbn [rev]. now rewrite <- app_assoc. }
  intros current. now apply (G (length text)).
Qed.
(** Whatever is accepted is, line for line, 64 hexadecimal digits, two spaces and the path. *)
Theorem c91_sound text m : parse_checkfile text = Some m ->
  Forall2 (fun line e => exists digits, line = digits ++ [32; 32] ++ fst e /\ length digits = 64%nat /\ bytes_of digits = Some (snd e))
    (lines [] text) (rev m).
Proof.
  unfold parse_checkfile. generalize (lines [] text). intros ls.
  assert (G : forall ls acc m, insert_all ls acc = Some m -> exists new, m = rev new ++ acc /\
    Forall2 (fun line e => exists digits, line = digits ++ [32; 32] ++ fst e /\ length digits = 64%nat /\ bytes_of digits = Some (snd e)) ls new).
  { clear. induction ls as [|l ls IH]; intros acc m H; cbn [insert_all] in H.
    - injection H as <-. exists []. split; [reflexivity|constructor].
    - destruct (parse_line l) as [e|] eqn:P; [|discriminate]. destruct (IH _ _ H) as (new & -> & F). exists (e :: new).
      split; [cbn [rev]; now rewrite <- app_assoc|]. constructor; [|exact F].
      unfold parse_line in P. destruct (split_join l []) as (f & more & Q & E). rewrite Q in P.
      destruct more as [|path [|? ?]]; try discriminate. unfold checksum_of in P.
      destruct (Nat.eqb_spec (length f) 64) as [L|]; [|discriminate]. destruct (bytes_of f) as [c|] eqn:B; [|discriminate].
      injection P as <-. exists f. cbn [fst snd]. split; [|auto].
      cbn [removelast last map concat rev app] in E. rewrite <- E. now rewrite app_nil_r, <- app_assoc. }
  intros H. destruct (G _ _ _ H) as (new & -> & F). now rewrite app_nil_r, rev_involutive.
Qed.

Definition ex_sum : list Z := map Z.of_nat (seq 100 32).
Definition ex_path : list Z := [100; 47; 32; 97; 46; 100].
Lemma ex_good : good (ex_path, ex_sum) /\ good ([97], repeat 255 32).
Proof.
  assert (N : forall l : list Z, forallb (fun i => negb ((nth i l 0 =? 32) && (nth (S i) l 0 =? 32))) (seq 0 (length l)) = true ->
    forall p q, l <> p ++ [32; 32] ++ q).
  { intros l H p q ->. rewrite forallb_forall in H.
    assert (I : In (length p) (seq 0 (length (p ++ [32; 32] ++ q)))) by (apply in_seq; rewrite app_length; cbn; lia).
    specialize (H _ I). rewrite (app_nth2 p _ 0 (n := length p)), (app_nth2 p _ 0 (n := S (length p))) in H by lia. replace (length p - length p)%nat with 0%nat in H by lia.
    replace (S (length p) - length p)%nat with 1%nat in H by lia. cbn [app nth] in H. rewrite Z.eqb_refl in H. discriminate H. }
  assert (R : forall l : list Z, last l 0 <> 13 -> forall p, l <> p ++ [13]) by (intros l H p ->; rewrite last_last in H; congruence).
  split; (split; [reflexivity|]); cbn [fst snd].
  - split; [unfold ex_sum; repeat constructor; cbn; lia|]. split; [cbn; intuition lia|]. split; [apply R; cbn; lia|apply N; reflexivity].
  - split; [repeat constructor; lia|]. split; [cbn; intuition lia|]. split; [apply R; cbn; lia|apply N; reflexivity].
Qed.
Example ex_c91_round_trip : Forall good [(ex_path, ex_sum); ([97], repeat 255 32)] /\
  parse_checkfile (write_file [(ex_path, ex_sum); ([97], repeat 255 32)]) = Some [([97], repeat 255 32); (ex_path, ex_sum)].
Proof. split; [destruct ex_good; auto|vm_compute; reflexivity]. Qed.
Example ex_c91_open_end : parse_checkfile (write_file [(ex_path, ex_sum)] ++ write_line ([97], repeat 255 32)) = Some [([97], repeat 255 32); (ex_path, ex_sum)].
Proof. apply (c91_open_end [(ex_path, ex_sum)] ([97], repeat 255 32)); destruct ex_good; auto. Qed.
(** Upper case digits, a carriage return, and no end of the last line. *)
Example ex_c91_sound : parse_checkfile (repeat 65 64 ++ [32; 32; 98; 13; 10] ++ repeat 48 64 ++ [32; 32; 99]) = Some [([99], repeat 0 32); ([98], repeat 170 32)] /\
  parse_checkfile (repeat 65 63 ++ [32; 32; 98]) = None /\ parse_checkfile (repeat 65 64 ++ [32; 98]) = None /\ parse_checkfile [10] = None.
Proof. repeat split; vm_compute; reflexivity. Qed.

(** ** Refuted *)
(** "A file that names a path twice with different checksums is refused." *)
Theorem c91_double_refuted : exists text path a b, a <> b /\ parse_checkfile text = Some [(path, a); (path, b)].
Proof.
  exists (write_file [([97], repeat 1 32); ([97], repeat 2 32)]), [97], (repeat 2 32), (repeat 1 32).
  split; [discriminate|vm_compute; reflexivity].
Qed.
(** "Every path can be written": not one with two spaces. *)
Theorem c91_spaces_refuted : exists path c, length c = 32%nat /\ ~ In 10 path /\ parse_checkfile (write_file [(path, c)]) = None.
Proof. exists [97; 32; 32; 98], (repeat 1 32). split; [reflexivity|]. split; [cbn; intuition lia|vm_compute; reflexivity]. Qed.

Print Assumptions c91_round_trip.
Print Assumptions c91_open_end.
Print Assumptions c91_sound.
Print Assumptions c91_double_refuted.
Print Assumptions c91_spaces_refuted.
