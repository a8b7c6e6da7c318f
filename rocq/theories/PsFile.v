(** Lemmas about reading accumulators, proofs and files of the Perpetual Powers of Tau. *)
From Coq Require Import ZArith List Bool Lia.
From Verif Require Import PsModel PsSpec PsLemmas.
Import ListNotations.

(** [d] reads back what [s] writes. *)
Definition reads {A} (d : reader -> out A * reader) (s : A -> list Z) (x : A) : Prop :=
  forall rest, d (slice (s x ++ rest)) = (Ok x, slice rest).

Lemma many_reads {A} (d : reader -> out A * reader) s l : Forall (reads d s) l ->
  forall rest, many (length l) d (slice (flat_map s l ++ rest)) = (Ok l, slice rest).
Proof.
  induction 1 as [|x l R _ IH]; intros rest; [reflexivity|]. cbn [length many flat_map].
  rewrite <- app_assoc, R, IH. reflexivity.
Qed.
Lemma many_ok {A} (d : reader -> out A * reader) (P : A -> Prop) : (forall r x r', d r = (Ok x, r') -> P x) ->
  forall n r l r', many n d r = (Ok l, r') -> length l = n /\ Forall P l.
Proof.
  intros D. induction n as [|n IH]; intros r l r' E; cbn [many] in E.
  - injection E as <- _. split; [reflexivity|constructor].
  - destruct (d r) as [[x|e|] r1] eqn:Ed; try discriminate. destruct (many n d r1) as [[l1|e|] r2] eqn:Em; try discriminate.
    injection E as <- _. apply IH in Em. destruct Em as [<- F]. split; [reflexivity|]. constructor; eauto.
Qed.
Lemma many_err {A} (d : reader -> out A * reader) : (forall r r', d r <> (Panic, r')) -> forall n r r', many n d r <> (Panic, r').
Proof.
  intros D. induction n as [|n IH]; intros r r' E; cbn [many] in E; [discriminate|].
  destruct (d r) as [[x|e|] r1] eqn:Ed; try discriminate; [|now apply D in Ed].
  destruct (many n d r1) as [[l1|e|] r2] eqn:Em; try discriminate. now apply IH in Em.
Qed.
Lemma andthen_ok {A B} (x : out A * reader) (f : A -> reader -> out B * reader) y r :
  andthen x f = (Ok y, r) -> exists a r1, x = (Ok a, r1) /\ f a r1 = (Ok y, r).
Proof. destruct x as [[a|e|] r1]; cbn [andthen]; try discriminate. eauto. Qed.
Lemma bind_ok {A B} (x : out A) (f : A -> out B) y : bind x f = Ok y -> exists a, x = Ok a /\ f a = Ok y.
Proof. destruct x as [a|e|]; cbn [bind]; try discriminate. eauto. Qed.
Lemma each_ok {A} (f : A -> out unit) l : each f l = Ok tt <-> Forall (fun x => f x = Ok tt) l.
Proof.
  induction l as [|x l IH]; cbn [each]; [split; auto|]. split.
  - intros E. apply bind_ok in E. destruct E as ([] & A1 & A2). constructor; auto. now apply IH.
  - intros E. inversion E as [|? ? A1 A2]; subst. rewrite A1. cbn [bind]. now apply IH.
Qed.
Lemma each_or {A} (f : A -> out unit) l : (forall x, f x <> Panic) -> each f l = Ok tt \/ exists e, each f l = Err e.
Proof.
  intros D. induction l as [|x l IH]; cbn [each]; auto. destruct (f x) as [[]|e|] eqn:E; cbn [bind]; eauto. now apply D in E.
Qed.

(** * Accumulators and proofs *)
Section Acc.
Variables C1 C2 : curve.

Lemma acc_reads d1 s1 d2 s2 (a : accumulator C1 C2) n1 n2 : acc_size _ _ a n1 n2 ->
  acc_all _ _ (reads d1 s1) (reads d2 s2) a ->
  forall rest, de_acc_with C1 C2 d1 d2 n1 n2 (slice (ser_acc_with C1 C2 s1 s2 a ++ rest)) = (Ok a, slice rest).
Proof.
  intros (N1 & N2 & N3 & N4) (A1 & A2 & A3 & A4 & A5) rest. unfold de_acc_with, ser_acc_with.
  destruct a as [t1 t2 al bt b2]. cbn [tau_powers_g1 tau_powers_g2 alpha_tau_powers_g1 beta_tau_powers_g1 beta_g2] in *.
  rewrite <- !app_assoc. rewrite <- N1 at 1. rewrite many_reads by auto. cbn [andthen].
  rewrite <- N2 at 1. rewrite many_reads by auto. cbn [andthen].
  rewrite <- N3 at 1. rewrite many_reads by auto. cbn [andthen].
  rewrite <- N4 at 1. rewrite many_reads by auto. cbn [andthen]. rewrite A5. reflexivity.
Qed.
Lemma acc_with_ok d1 d2 (P1 : point (F C1) -> Prop) (P2 : point (F C2) -> Prop) n1 n2 r a r' : (forall r x r', d1 r = (Ok x, r') -> P1 x) -> (forall r x r', d2 r = (Ok x, r') -> P2 x) ->
  de_acc_with C1 C2 d1 d2 n1 n2 r = (Ok a, r') -> acc_size _ _ a n1 n2 /\ acc_all _ _ P1 P2 a.
Proof.
  intros D1 D2 E. unfold de_acc_with in E.
  apply andthen_ok in E. destruct E as (t1 & r1 & E1 & E). apply andthen_ok in E. destruct E as (t2 & r2 & E2 & E).
  apply andthen_ok in E. destruct E as (al & r3 & E3 & E). apply andthen_ok in E. destruct E as (bt & r4 & E4 & E).
  apply andthen_ok in E. destruct E as (b2 & r5 & E5 & E). injection E as <- _.
  apply (many_ok d1 P1) in E1, E3, E4; auto. apply (many_ok d2 P2) in E2; auto. apply D2 in E5.
  unfold acc_size, acc_all. cbn. tauto.
Qed.
Lemma acc_uncompressed_ok n1 n2 r a r' : de_acc_uncompressed C1 C2 n1 n2 r = (Ok a, r') ->
  de_acc_unchecked C1 C2 n1 n2 r = (Ok a, r') /\ acc_all _ _ (fun g => check C1 g = Ok tt) (fun g => check C2 g = Ok tt) a.
Proof.
  unfold de_acc_uncompressed. destruct (de_acc_unchecked C1 C2 n1 n2 r) as [o r1]. intros E.
  assert (r1 = r') as -> by (injection E; auto). apply (f_equal fst) in E. cbn [fst] in E.
  apply bind_ok in E. destruct E as (a' & -> & E).
  apply bind_ok in E. destruct E as ([] & E1 & E). apply bind_ok in E. destruct E as ([] & E2 & E).
  apply bind_ok in E. destruct E as ([] & E3 & E). apply bind_ok in E. destruct E as ([] & E4 & E).
  apply bind_ok in E. destruct E as ([] & E5 & E). injection E as ->.
  apply each_ok in E1. apply each_ok in E2. apply each_ok in E3. apply each_ok in E4. split; [reflexivity|]. unfold acc_all. tauto.
Qed.
Lemma acc_uncompressed_reads n1 n2 r a r' : de_acc_unchecked C1 C2 n1 n2 r = (Ok a, r') ->
  acc_all _ _ (fun g => check C1 g = Ok tt) (fun g => check C2 g = Ok tt) a ->
  de_acc_uncompressed C1 C2 n1 n2 r = (Ok a, r').
Proof.
  intros E (A1 & A2 & A3 & A4 & A5). unfold de_acc_uncompressed. rewrite E. f_equal. cbn [bind].
  rewrite (proj2 (each_ok _ _) A1). cbn [bind]. rewrite (proj2 (each_ok _ _) A2). cbn [bind].
  rewrite (proj2 (each_ok _ _) A3). cbn [bind]. rewrite (proj2 (each_ok _ _) A4). cbn [bind].
  rewrite A5. reflexivity.
Qed.

Lemma proof_reads d1 s1 d2 s2 (p : proof C1 C2) : proof_all _ _ (reads d1 s1) (reads d2 s2) p ->
  forall rest, de_proof_with C1 C2 d1 d2 (slice (ser_proof_with C1 C2 s1 s2 p ++ rest)) = (Ok p, slice rest).
Proof.
  destruct p as [[t0 t1 mt] [a0 a1 ma] [b0 b1 mb]]. unfold proof_all, ratio_all, de_proof_with, ser_proof_with.
  cbn [p_tau p_alpha p_beta ratio0 ratio1 matching]. intros ((A & B & C) & (D & E & F) & (G & H & I)) rest.
  rewrite <- !app_assoc. rewrite A. cbn [andthen]. rewrite B. cbn [andthen]. rewrite D. cbn [andthen]. rewrite E. cbn [andthen].
  rewrite G. cbn [andthen]. rewrite H. cbn [andthen]. rewrite C. cbn [andthen]. rewrite F. cbn [andthen]. rewrite I. reflexivity.
Qed.
Lemma proof_with_ok d1 d2 (P1 : point (F C1) -> Prop) (P2 : point (F C2) -> Prop) r p r' : (forall r x r', d1 r = (Ok x, r') -> P1 x) -> (forall r x r', d2 r = (Ok x, r') -> P2 x) ->
  de_proof_with C1 C2 d1 d2 r = (Ok p, r') -> proof_all _ _ P1 P2 p.
Proof.
  intros D1 D2 E. unfold de_proof_with in E.
  do 9 (apply andthen_ok in E; let a := fresh "a" in let r := fresh "r" in let H := fresh "H" in destruct E as (a & r & H & E)).
  injection E as <- _. unfold proof_all, ratio_all. cbn [p_tau p_alpha p_beta ratio0 ratio1 matching].
  repeat split; eauto.
Qed.
Lemma nz_ok (C : curve) (d : reader -> out (point (F C)) * reader) (P : point (F C) -> Prop) r x r' :
  (forall r x r', d r = (Ok x, r') -> P x) ->
  (let (o, r) := d r in (bind o (nonzero C), r)) = (Ok x, r') -> P x /\ x <> Inf.
Proof.
  intros D. destruct (d r) as [o r1] eqn:E. intros E'. apply (f_equal fst) in E'. cbn [fst] in E'. apply bind_ok in E'.
  destruct E' as (g & -> & N). apply D in E. destruct g as [|gx gy]; [discriminate|]. injection N as <-. split; [exact E|discriminate].
Qed.
Lemma nz_reads (C : curve) (d : reader -> out (point (F C)) * reader) s x : x <> Inf -> reads d s x ->
  reads (fun r => let (o, r) := d r in (bind o (nonzero C), r)) s x.
Proof. intros N R rest. rewrite R. destruct x; [congruence|]. reflexivity. Qed.

(** * Files *)
Variable len : nat.

Lemma range_at file a rest start sz : length a = sz -> skipn start file = a ++ rest ->
  range file start (start + sz) = Some a \/ sz = 0.
Proof.
  intros La E. unfold range. destruct sz as [|sz]; [auto|]. left.
  assert (length (skipn start file) = length file - start) as Ls by apply skipn_length.
  rewrite E, app_length in Ls. destruct (Nat.leb_spec (start + S sz) (length file)) as [_|N]; [|lia].
  f_equal. rewrite E. replace (start + S sz - start) with (S sz) by lia. rewrite <- La, firstn_app, Nat.sub_diag, firstn_all, firstn_O.
  apply app_nil_r.
Qed.
Lemma skipn_add {A} n m (l : list A) : skipn (n + m) l = skipn m (skipn n l).
Proof. revert l. induction n as [|n IH]; intros l; [reflexivity|]. destruct l; cbn [Nat.add skipn]; [now rewrite skipn_nil|apply IH]. Qed.
Lemma slice_reads {A} (d : reader -> out A * reader) s x : reads d s x -> fst (d (slice (s x))) = Ok x.
Proof. intros R. specialize (R []). rewrite app_nil_r in R. now rewrite R. Qed.

Lemma read_loop_reads {A} (d : reader -> out A * reader) s sz file l : 0 < sz -> (forall x, length (s x) = sz) ->
  Forall (reads d s) l ->
  forall n start rest, n <= length l -> skipn start file = flat_map s l ++ rest ->
  read_loop d file sz n start = Ok (firstn n l).
Proof.
  intros Z0 Ls. induction 1 as [|x l R _ IH]; intros n start rest Ln E.
  - cbn [length] in Ln. assert (n = 0) as -> by lia. reflexivity.
  - destruct n as [|n]; [reflexivity|]. cbn [read_loop firstn]. cbn [flat_map] in E. rewrite <- app_assoc in E.
    destruct (range_at file (s x) (flat_map s l ++ rest) start sz (Ls x) E) as [->|]; [|lia].
    rewrite slice_reads by auto. cbn [bind]. rewrite (IH n (start + sz) rest); [reflexivity|cbn [length] in Ln; lia|].
    rewrite skipn_add, E, <- (Ls x). rewrite skipn_app, Nat.sub_diag, skipn_all, skipn_O. reflexivity.
Qed.
Lemma read_loop_ok {A} (d : reader -> out A * reader) (P : A -> Prop) file sz : (forall r x r', d r = (Ok x, r') -> P x) ->
  forall n start l, read_loop d file sz n start = Ok l -> length l = n /\ Forall P l.
Proof.
  intros D. induction n as [|n IH]; intros start l E; cbn [read_loop] in E.
  - injection E as <-. split; [reflexivity|constructor].
  - destruct (range file start (start + sz)) as [bs|]; [|discriminate]. apply bind_ok in E. destruct E as (x & Ex & E).
    apply bind_ok in E. destruct E as (l1 & El & E). injection E as <-. apply IH in El. destruct El as [<- Fl].
    split; [reflexivity|]. constructor; auto. destruct (d (slice bs)) as [o r'] eqn:Ed. cbn [fst] in Ex. subst o. eauto.
Qed.
(** A file that ends before the last element makes the program panic, unless an element is refused first. *)
Lemma read_loop_short {A} (d : reader -> out A * reader) file sz : 0 < sz -> forall n start l,
  read_loop d file sz n start = Ok l -> start + sz * n <= length file \/ n = 0.
Proof.
  intros Z0. induction n as [|n IH]; intros start l E; [auto|]. left. cbn [read_loop] in E.
  unfold range in E. destruct (Nat.leb_spec (start + sz) (length file)) as [Le|]; [|discriminate].
  apply bind_ok in E. destruct E as (x & Ex & E). apply bind_ok in E. destruct E as (l1 & El & E).
  apply IH in El. destruct El as [El|El]; [|subst n]; lia.
Qed.

Lemma checks_ok (C : curve) c l l' : (c = Yes -> Forall (fun g => on_curve C g = true) l) -> checks C c l = Ok l' ->
  l' = l /\ Forall (fun g => on_curve C g = true /\ insub C g = true) l.
Proof.
  intros Y E. destruct c; cbn [checks] in E.
  - destruct (each (check C) l) as [[]|e|] eqn:K; try discriminate. injection E as <-. split; auto.
    apply each_ok in K. eapply Forall_impl; [|exact K]. intros g. apply check_ok.
  - apply bind_ok in E. destruct E as ([] & K & E). injection E as <-. split; auto. specialize (Y eq_refl).
    apply each_ok in K. rewrite Forall_forall in *. intros g Hg. specialize (Y g Hg). specialize (K g Hg). cbv beta in K.
    destruct (insub C g); [auto|discriminate].
Qed.
Lemma checks_fine (C : curve) c l : Forall (fun g => on_curve C g = true /\ insub C g = true) l -> checks C c l = Ok l.
Proof.
  intros G. destruct c; cbn [checks].
  - rewrite (proj2 (each_ok _ _)); [reflexivity|]. eapply Forall_impl; [|exact G]. intros g. apply check_ok.
  - rewrite (proj2 (each_ok _ _)); [reflexivity|]. eapply Forall_impl; [|exact G]. cbv beta. intros g [_ ->]. reflexivity.
Qed.

(** The lengths of the parts of the file. *)
Definition off (c : compressed) (e : element) : nat :=
  let (s1, s2) := match c with No => (64, 128) | Yes => (32, 64) end in
  64 + match e with
       | TauG1 => 0
       | TauG2 => s1 * (2 * len - 1)
       | AlphaG1 => s1 * (2 * len - 1) + s2 * len
       | BetaG1 => s1 * (2 * len - 1) + s2 * len + s1 * len
       | BetaG2 => s1 * (2 * len - 1) + s2 * len + s1 * len + s1 * len
       end.
Lemma position0 e c : 0 < len -> position len 0 e c = Some (off c e).
Proof.
  intros L. unfold position, off. destruct c, e; try (destruct (Nat.ltb_spec 0 len) as [_|N]; [|lia]);
    try (destruct (Nat.ltb_spec 0 (2 * len - 1)) as [_|N]; [|lia]); f_equal; lia.
Qed.
Lemma flat_map_length {A} (s : A -> list Z) sz l : (forall x, length (s x) = sz) -> length (flat_map s l) = sz * length l.
Proof. intros E. induction l as [|x l IH]; cbn [flat_map length]; [lia|]. rewrite app_length, IH, E. lia. Qed.
Lemma skipn_length_app {A} n (a b : list A) : length a = n -> skipn n (a ++ b) = b.
Proof. intros <-. rewrite skipn_app, Nat.sub_diag, skipn_all, skipn_O. reflexivity. Qed.
End Acc.
