(** A rotation, or an improper one, takes each point between two planes through its axis. *)
From Coq Require Import QArith Lqa Qfield.
From Verif Require Import Base QPoint CutModel CutSpec CutGeomProofs VolumeSpec VolumeProofs MoveProofs AdditiveProofs LinearProofs SameSetProofs.
Local Open Scope Q_scope.

Definition triple (x y z : q3) : Q := dot (cross x y) z.
Ltac flat := unfold triple, dot, cross, qscale, qadd, opposite; cbn [qx qy qz].
Lemma dot_add c x y : dot c (qadd x y) == dot c x + dot c y. Proof. flat. ring. Qed.
Lemma dot_comm x y : dot x y == dot y x. Proof. flat. ring. Qed.
Lemma dot_left x y c : same_place x y -> dot x c == dot y c.
Proof. intros E. rewrite (dot_comm x), (dot_comm y). now apply dot_place. Qed.
Lemma triple_places x y z x' y' z' : same_place x x' -> same_place y y' -> same_place z z' -> triple x y z == triple x' y' z'.
Proof. intros (A & B & C) (D & E & F) (G & H & I). flat. rewrite A, B, C, D, E, F, G, H, I. reflexivity. Qed.
Lemma triple_last a p x : triple a p x == dot (cross a p) x. Proof. reflexivity. Qed.
Lemma triple_middle a p x : triple a p x == dot (cross x a) p. Proof. flat. ring. Qed.
Lemma independent_zero a p s x y : ~ triple a p s == 0 -> dot a x == dot a y -> dot p x == dot p y -> dot s x == dot s y -> same_place x y.
Proof.
  intros N A P S. assert (K : forall c, dot c x == dot c y).
  { intros c. assert (E : triple a p s * (dot c x - dot c y) == triple c p s * (dot a x - dot a y) + triple a c s * (dot p x - dot p y) + triple a p c * (dot s x - dot s y)) by (flat; ring).
    rewrite A, P, S in E. assert (E' : triple a p s * (dot c x - dot c y) == 0) by (rewrite E; ring). apply Qmult_integral in E'. destruct E'; [contradiction|lra]. }
  now apply place_all.
Qed.

Section Turn.
Variables (T : q3 -> q3) (e : Q) (a : q3) (M : nat).
Hypothesis Tp : forall x y, same_place x y -> same_place (T x) (T y).
Hypothesis Tadd : forall c x y, dot c (T (qadd x y)) == dot c (T x) + dot c (T y).
Hypothesis Td : forall x y, dot (T x) (T y) == dot x y.
Hypothesis Tt : forall x y z, triple (T x) (T y) (T z) == e * triple x y z.
Hypothesis ee : e * e == 1.
Hypothesis Taxis : forall x, dot a (T x) == e * dot a x.
Fixpoint it (n : nat) (x : q3) : q3 := match n with O => x | S n => T (it n x) end.
Hypothesis Mpos : (0 < M)%nat.
Hypothesis TM : forall x, same_place (it M x) x.

Lemma onto y : exists x, same_place (T x) y.
Proof. destruct M as [|m] eqn:E; [lia|]. exists (it m y). exact (TM y). Qed.
Lemma axis_turned : same_place (T a) (qscale e a).
Proof.
  apply place_all. intros c. destruct (onto c) as (x & E). rewrite <- (dot_left _ _ (T a) E), <- (dot_left _ _ (qscale e a) E), Td. assert (K : dot (T x) (qscale e a) == e * dot a (T x)) by (flat; ring). rewrite K, Taxis, (dot_comm x a).
  transitivity ((e * e) * dot a x); [rewrite ee; ring|ring].
Qed.
Lemma cross_turned x y : same_place (T (cross x y)) (qscale e (cross (T x) (T y))).
Proof.
  apply place_all. intros c. destruct (onto c) as (z & E). rewrite <- (dot_left _ _ _ E), <- (dot_left _ _ (qscale e _) E), Td.
  assert (K : dot (T z) (qscale e (cross (T x) (T y))) == e * triple (T x) (T y) (T z)) by (flat; ring). rewrite K, Tt. transitivity ((e * e) * triple x y z); [rewrite ee; flat; ring|ring].
Qed.
Lemma e_nonzero : ~ e == 0. Proof. intros E. rewrite E in ee. lra. Qed.
Lemma pair_turned p x : triple a (T p) (T x) == triple a p x.
Proof.
  pose proof (Tt a p x) as E. rewrite (triple_places _ _ _ _ _ _ axis_turned (place_refl (T p)) (place_refl (T x))) in E.
  assert (K : triple (qscale e a) (T p) (T x) == e * triple a (T p) (T x)) by (flat; ring). rewrite K in E. apply Qmult_inj_l in E; [exact E|exact e_nonzero].
Qed.

(** ** Sums over turns *)
Fixpoint orbit (n : nat) (x : q3) : q3 := match n with O => Q3 0 0 0 | S n => qadd (orbit n x) (it n x) end.
Fixpoint tot (f : q3 -> Q) (n : nat) (x : q3) : Q := match n with O => 0 | S n => tot f n x + f (it n x) end.
Lemma dot_orbit c n x : dot c (orbit n x) == tot (dot c) n x.
Proof. induction n as [|n IH]; cbn [orbit tot]; [flat; ring|]. rewrite dot_add, IH. reflexivity. Qed.
Lemma dot_zero c : dot c (T (Q3 0 0 0)) == 0.
Proof.
  pose proof (Tadd c (Q3 0 0 0) (Q3 0 0 0)) as E. assert (K : same_place (qadd (Q3 0 0 0) (Q3 0 0 0)) (Q3 0 0 0)) by (repeat split; cbn; ring). rewrite (dot_place c _ _ (Tp _ _ K)) in E. lra.
Qed.
Lemma dot_orbit_turned c n x : dot c (T (orbit n x)) == tot (dot c) n (T x).
Proof.
  assert (C : forall k, it k (T x) = T (it k x)) by (induction k as [|k IHk]; cbn [it]; [reflexivity|now rewrite IHk]).
  induction n as [|n IH]; cbn [orbit tot]; [apply dot_zero|]. rewrite Tadd, IH, C. reflexivity.
Qed.
Lemma tot_shift c n x : tot (dot c) n (T x) + dot c x == tot (dot c) n x + dot c (it n x).
Proof.
  assert (C : forall k, it k (T x) = T (it k x)) by (induction k as [|k IHk]; cbn [it]; [reflexivity|now rewrite IHk]).
  induction n as [|n IH]; cbn [tot it]; [ring|]. rewrite C. lra.
Qed.
Lemma orbit_fixed x : same_place (T (orbit M x)) (orbit M x).
Proof. apply place_all. intros c. rewrite dot_orbit_turned, dot_orbit. pose proof (tot_shift c M x) as E. rewrite (dot_place c _ _ (TM x)) in E. lra. Qed.

(** No two fixed points are in different planes through the axis. *)
Definition fixed_line : Prop := forall P S, same_place (T P) P -> same_place (T S) S -> triple a P S == 0.
Lemma tot_zero p x : fixed_line -> tot (dot (cross a p)) M x == 0.
Proof.
  intros F. rewrite <- dot_orbit. set (S := orbit M x). assert (FS : same_place (T S) S) by apply orbit_fixed. change (dot (cross a p) S) with (triple a p S).
  assert (K : forall k, triple a (it k p) S == triple a p S).
  { induction k as [|k IH]; cbn [it]; [reflexivity|]. rewrite <- IH, <- (pair_turned (it k p) S). apply triple_places; [apply place_refl|apply place_refl|apply place_sym, FS]. }
  assert (N : forall n, tot (dot (cross S a)) n p == inject_Z (Z.of_nat n) * triple a p S).
  { induction n as [|n IH]; cbn [tot]; [change (inject_Z (Z.of_nat 0)) with 0; ring|]. rewrite IH, <- triple_middle, K, Nat2Z.inj_succ. unfold Z.succ. rewrite inject_Z_plus. change (inject_Z 1) with 1. ring. }
  specialize (N M). rewrite <- dot_orbit, <- triple_middle, (F (orbit M p) S (orbit_fixed p) FS) in N. symmetry in N. apply Qmult_integral in N. destruct N as [N|N]; [|exact N].
  exfalso. assert (H : inject_Z 0 < inject_Z (Z.of_nat M)) by (rewrite <- Zlt_Qlt; lia). change (inject_Z 0) with 0 in H. lra.
Qed.

(** ** Consecutive signs *)
Lemma tot_neg f n : forall x, (forall k, (k < n)%nat -> f (it k x) < 0) -> (0 < n)%nat -> tot f n x < 0.
Proof.
  induction n as [|n IH]; intros x H P; [lia|]. cbn [tot]. assert (H0 := H n (Nat.lt_succ_diag_r n)). destruct n as [|n]; [cbn [tot]; lra|]. assert (H1 : tot f (S n) x < 0) by (apply IH; [intros k Hk; apply H; lia|lia]). lra.
Qed.
Lemma tot_pos f n : forall x, (forall k, (k < n)%nat -> 0 < f (it k x)) -> (0 < n)%nat -> 0 < tot f n x.
Proof.
  induction n as [|n IH]; intros x H P; [lia|]. cbn [tot]. assert (H0 := H n (Nat.lt_succ_diag_r n)). destruct n as [|n]; [cbn [tot]; lra|]. assert (H1 : 0 < tot f (S n) x) by (apply IH; [intros k Hk; apply H; lia|lia]). lra.
Qed.
Lemma it_it n m x : it n (it m x) = it (n + m) x.
Proof. induction n as [|n IH]; cbn [it Nat.add]; [reflexivity|]. now rewrite IH. Qed.
Lemma some_low f n x : (exists k, (k < n)%nat /\ f (it k x) <= 0) \/ forall k, (k < n)%nat -> 0 < f (it k x).
Proof.
  induction n as [|n [ (k & Hk & L) |IH]]; [right; intros; lia|left; exists k; split; [lia|exact L]|].
  destruct (Qlt_le_dec 0 (f (it n x))) as [G|L]; [right|left; exists n; auto]. intros k Hk. assert (k = n \/ k < n)%nat as [->|] by lia; auto.
Qed.
Lemma rises f x : (forall x, tot f M x == 0) -> exists k, f (it k x) <= 0 /\ 0 <= f (it (S k) x).
Proof.
  intros Z. destruct (some_low f M x) as [(k0 & _ & L)|H]; [|exfalso; pose proof (tot_pos f M x H Mpos) as P; rewrite (Z x) in P; lra].
  assert (H : forall n, (exists k, f (it k x) <= 0 /\ 0 <= f (it (S k) x)) \/ forall j, (j < n)%nat -> f (it (S j + k0) x) < 0).
  { induction n as [|n [IH|IH]]; [right; intros; lia|now left|]. assert (Ln : f (it (n + k0) x) <= 0). { destruct n as [|n]; [exact L|]. apply Qlt_le_weak. apply (IH n). lia. }
    destruct (Qlt_le_dec (f (it (S n + k0) x)) 0) as [N|G]; [|left; exists (n + k0)%nat; auto]. right. intros j Hj. assert (j = n \/ j < n)%nat as [->|] by lia; auto. }
  destruct (H M) as [K|K]; [exact K|]. exfalso. assert (P : tot f M (it (S k0) x) < 0).
  { apply tot_neg; [|exact Mpos]. intros k Hk. rewrite it_it. replace (k + S k0)%nat with (S k + k0)%nat by lia. now apply K. }
  rewrite (Z (it (S k0) x)) in P. lra.
Qed.
Lemma tot_opp f n x : tot (fun y => - f y) n x == - tot f n x.
Proof. induction n as [|n IH]; cbn [tot]; [ring|]. rewrite IH. ring. Qed.

(** ** The planes *)
Lemma between p0 p1 x : fixed_line -> same_place p1 (T p0) -> exists k, 0 <= dot (cross a p0) (it k x) /\ 0 <= dot (cross p1 a) (it k x).
Proof.
  intros F E. destruct (rises (dot (cross a p0)) x (fun y => tot_zero p0 y F)) as (k & L & G). exists (S k). split; [exact G|].
  assert (K : dot (cross p1 a) (it (S k) x) == - triple a p1 (it (S k) x)) by (flat; ring). rewrite K, (triple_places _ _ _ _ _ _ (place_refl a) E (place_refl (it (S k) x))). cbn [it]. rewrite pair_turned, triple_last. lra.
Qed.
Lemma between' p0 p1 x : fixed_line -> same_place p1 (T p0) -> exists k, 0 <= dot (cross a p1) (it k x) /\ 0 <= dot (cross p0 a) (it k x).
Proof.
  intros F E. destruct (rises (fun y => - dot (cross a p0) y) x) as (k & L & G). { intros y. rewrite tot_opp, (tot_zero p0 y F). reflexivity. } exists (S k).
  assert (K : dot (cross p0 a) (it (S k) x) == - dot (cross a p0) (it (S k) x)) by (flat; ring). rewrite K. split; [|exact G].
  change (dot (cross a p1) (it (S k) x)) with (triple a p1 (it (S k) x)). rewrite (triple_places _ _ _ _ _ _ (place_refl a) E (place_refl (it (S k) x))). cbn [it]. rewrite pair_turned, triple_last. lra.
Qed.

(** ** Fixed points *)
Lemma fixed_line_of (U : q3 -> q3) : (forall x y, dot (U x) (U y) == dot x y) -> same_place (U a) a -> (forall P, same_place (T P) P -> same_place (U P) P) ->
  (exists z, ~ same_place (U z) z) -> fixed_line.
Proof.
  intros Ud Ua Up (z & Nz) P S FP FS. destruct (Qeq_dec (triple a P S) 0) as [E|N]; [exact E|]. exfalso. apply Nz. apply (independent_zero a P S); [exact N| | |].
  - rewrite <- (dot_left _ _ (U z) Ua). apply Ud.
  - rewrite <- (dot_left _ _ (U z) (Up P FP)). apply Ud.
  - rewrite <- (dot_left _ _ (U z) (Up S FS)). apply Ud.
Qed.
Lemma square_line : (exists z, ~ same_place (T (T z)) z) -> fixed_line.
Proof.
  apply (fixed_line_of (fun x => T (T x))).
  - intros x y. now rewrite !Td.
  - apply place_all. intros c. destruct (onto c) as (y & Ey). rewrite <- !(dot_left _ _ _ Ey), Td, (dot_place y _ _ axis_turned). assert (K : dot y (qscale e a) == e * dot a y) by (flat; ring).
    rewrite K, (dot_comm (T y) a), Taxis. reflexivity.
  - intros P FP. apply (place_trans _ (T P)); [now apply Tp|exact FP].
Qed.
Lemma proper_line : e == 1 -> (exists z, ~ same_place (T z) z) -> fixed_line.
Proof.
  intros E1. apply (fixed_line_of T); auto. apply (place_trans _ _ _ axis_turned). unfold qscale, same_place. cbn [qx qy qz]. rewrite E1. repeat split; ring.
Qed.
(** Points fixed by a proper rotation are on its axis. *)
Lemma on_axis S n : e == 1 -> fixed_line -> ~ dot a a == 0 -> same_place (T S) S -> dot n a == 0 -> dot n S == 0.
Proof.
  intros E1 F Na FS Hn. assert (FP : same_place (T (cross a S)) (cross a S)).
  { apply (place_trans _ _ _ (cross_turned a S)). destruct axis_turned as (A & B & C). destruct FS as (D & E & G). unfold qscale in *. cbn [qx qy qz] in *. unfold same_place, cross. cbn [qx qy qz]. rewrite A, B, C, D, E, G, E1. repeat split; ring. }
  pose proof (F _ _ FP FS) as Z. assert (K : triple a (cross a S) S == - dot (cross a S) (cross a S)) by (flat; ring). rewrite K in Z.
  assert (Q0 : forall x : Q, 0 <= x * x). { intros x. nra. }
  assert (Zc : same_place (cross a S) (Q3 0 0 0)).
  { set (c := cross a S) in *. unfold dot in Z. pose proof (Q0 (qx c)) as X. pose proof (Q0 (qy c)) as Y. pose proof (Q0 (qz c)) as W.
    assert (SQ : forall x : Q, x * x == 0 -> x == 0) by (intros x Hx; apply Qmult_integral in Hx; tauto). repeat split; cbn [qx qy qz]; apply SQ; lra. }
  assert (L : dot a a * dot n S == dot n a * dot a S + dot (cross a n) (cross a S)) by (flat; ring). rewrite Hn, (dot_place _ _ _ Zc) in L.
  assert (L' : dot a a * dot n S == 0) by (rewrite L; flat; ring). apply Qmult_integral in L'. destruct L'; [contradiction|assumption].
Qed.
End Turn.
