(** Moving atoms to positions the operations allow. *)
From Coq Require Import QArith Qround Qabs Lqa Qfield Permutation.
From Verif Require Import Base Array2Model Array2Proofs MatSpec QPoint BasisModel BasisSpec BasisProofs.
From Verif Require CombineLoopProofs.
Local Open Scope outcome_scope.
Local Open Scope nat_scope.

Lemma mapM_map {A B} (f : A -> outcome B) g l : (forall x, In x l -> f x = Ok (g x)) -> mapM f l = Ok (map g l).
Proof.
  induction l as [|x l IH]; intros H; [reflexivity|]. cbn [mapM map]. rewrite (H x) by now left. cbn [bind]. rewrite IH by (intros y Hy; apply H; now right). reflexivity.
Qed.
Lemma upd_at {A} (l : list A) : forall k x j, k < length l -> nth_error (upd l k x) j = if j =? k then Some x else nth_error l j.
Proof.
  induction l as [|y l IH]; intros k x j L; [cbn in L; lia|]. destruct k as [|k], j as [|j]; cbn; try reflexivity. apply IH. cbn in L. lia.
Qed.
Lemma upd_map {A B} (f : A -> B) (l : list A) : forall k x y, nth_error l k = Some y -> f x = f y -> map f (upd l k x) = map f l.
Proof.
  induction l as [|z l IH]; intros [|k] x y E F; cbn in *; try discriminate; [injection E as ->; now rewrite F|]. f_equal. now apply (IH k x y).
Qed.

Section Tolerance.
Variables ta tr : Q.
Hypothesis Tr : (tr <= 1)%Q.
Lemma equivalent_iff b t k : fst (equivalent_to ta tr b t k) = true <-> exists y, In (y, t) b /\ agree_mod ta tr k y.
Proof.
  destruct (equivalent_to_proof ta tr Tr b t k) as [(i & y & E & N & Ag & _)|[E No]]; rewrite E; cbn [fst]; split; try discriminate.
  - intros _. exists y. split; [now apply nth_error_In in N|exact Ag].
  - reflexivity.
  - intros (y & Hy & Ag). elim (No y Hy Ag).
Qed.
Lemma all_after_spec b k x t ops : nth_error b k = Some (x, t) -> exists r, all_after ta tr b k ops = Ok r /\ (r = true <-> forall m, In m ops -> exists y, In (y, t) b /\ agree_mod ta tr (image m x) y).
Proof.
  intros E. assert (L : k < length b) by (apply nth_error_Some; congruence). induction ops as [|m ops (r & Er & Hr)]; cbn [all_after]; [exists true; split; [reflexivity|]; split; [intros _ m []|reflexivity]|].
  unfold equivalent_after at 1. destruct (Nat.leb_spec (length b) k) as [X|_]; [lia|]. rewrite (rd_ok _ _ _ E). cbn [bind fst snd]. pose proof (equivalent_iff b t (move_point m x)) as Q. destruct (fst (equivalent_to ta tr b t (move_point m x))).
  - exists r. split; [exact Er|]. rewrite Hr. split; [intros H m' [<-|Hm]; [apply Q; reflexivity|auto]|intros H m' Hm; apply H; now right].
  - exists false. split; [reflexivity|]. split; [discriminate|]. intros H. apply Q. apply (H m). now left.
Qed.
Lemma sum_ok b k x t ops : nth_error b k = Some (x, t) -> forall s, exists s', foldM (add_difference ta tr b k (x, t)) ops s = Ok s'.
Proof.
  intros E. induction ops as [|m ops IH]; intros s; cbn [foldM]; [eauto|]. unfold add_difference at 1. cbn [fst snd]. destruct (closest_to_proof ta tr Tr b t (move_point m x)) as (fo & i & y & d & _ & _ & _ & Ec & _); [exists x; now apply nth_error_In in E|]. rewrite Ec. cbn [bind fst snd]. destruct (i =? k); cbn [bind]; apply IH.
Qed.
Lemma shift_ok ops b k x t : nth_error b k = Some (x, t) -> exists x', shift_atom ta tr ops b k = Ok (upd b k (x', t)).
Proof.
  intros E. unfold shift_atom. rewrite (rd_ok _ _ _ E). cbn [bind fst snd]. destruct (sum_ok b k x t ops E (Q3 0 0 0, 0)) as (s & ->). cbn [bind]. rewrite wr_ok by (apply nth_error_Some; congruence). eexists. reflexivity.
Qed.
Definition fine (b : basis) (ops : list move) (k : nat) : bool := match all_after ta tr b k ops with Ok r => r | _ => false end.
Lemma fine_map b ops : mapM (fun k => all_after ta tr b k ops) (seq 0 (length b)) = Ok (map (fine b ops) (seq 0 (length b))).
Proof.
  apply mapM_map. intros k Hk. apply in_seq in Hk. destruct (nth_error b k) as [[x t]|] eqn:E; [|apply nth_error_None in E; lia]. unfold fine. destruct (all_after_spec b k x t ops E) as (r & -> & _). reflexivity.
Qed.
Lemma all_fine b ops : forallb (fun x => x) (map (fine b ops) (seq 0 (length b))) = true <-> symmetric ta tr ops b.
Proof.
  rewrite forallb_forall. split.
  - intros H m x t Hm Hx. apply In_nth_error in Hx as (k & E). destruct (all_after_spec b k x t ops E) as (r & Er & Hr). apply Hr; [|exact Hm]. assert (F : fine b ops k = true). { apply H. apply in_map_iff. exists k. split; [reflexivity|]. apply in_seq. split; [lia|]. cbn. apply nth_error_Some. congruence. } unfold fine in F. now rewrite Er in F.
  - intros H y Hy. apply in_map_iff in Hy as (k & <- & Hk). apply in_seq in Hk. destruct (nth_error b k) as [[x t]|] eqn:E; [|apply nth_error_None in E; lia]. unfold fine. destruct (all_after_spec b k x t ops E) as (r & -> & Hr). apply Hr. intros m Hm. apply (H m x t Hm). now apply nth_error_In in E.
Qed.
Lemma rd_flag b ops k : k < length b -> rd (map (fine b ops) (seq 0 (length b))) k = Ok (fine b ops k).
Proof. intros L. apply rd_ok. rewrite nth_error_map. rewrite (nth_error_nth' _ 0) by (rewrite seq_length; exact L). rewrite seq_nth by exact L. reflexivity. Qed.
(** After the first steps of the loop. *)
Lemma shift_loop ops b n : n <= length b -> exists b', foldM (fun b' k => let* o := rd (map (fine b ops) (seq 0 (length b))) k in if o : bool then Ok b' else shift_atom ta tr ops b' k) (seq 0 n) b = Ok b' /\
  map snd b' = map snd b /\ (forall k, n <= k -> nth_error b' k = nth_error b k) /\
  (forall k, k < n -> fine b ops k = true -> nth_error b' k = nth_error b k) /\
  (forall k x t, k < n -> fine b ops k = false -> nth_error b k = Some (x, t) -> exists b0 x', map snd b0 = map snd b /\ nth_error b0 k = Some (x, t) /\ shift_atom ta tr ops b0 k = Ok (upd b0 k (x', t)) /\ nth_error b' k = Some (x', t)).
Proof.
  induction n as [|n IH]; intros L.
  - exists b. cbn. split; [reflexivity|]. split; [reflexivity|]. split; [reflexivity|]. split; intros; lia.
  - destruct IH as (b1 & E1 & M1 & R1 & K1 & S1); [lia|]. rewrite seq_S, (CombineLoopProofs.foldM_snoc). cbn [Nat.add]. rewrite E1. cbn [bind]. rewrite rd_flag by lia. cbn [bind]. destruct (fine b ops n) eqn:F.
    + exists b1. split; [reflexivity|]. split; [exact M1|]. split; [intros k Lk; apply R1; lia|]. split.
      * intros k Lk Fk. destruct (Nat.eq_dec k n) as [->|N]; [apply R1; lia|apply K1; [lia|exact Fk]].
      * intros k x t Lk Fk E. destruct (Nat.eq_dec k n) as [->|N]; [congruence|]. apply S1; [lia|exact Fk|exact E].
    + destruct (nth_error b n) as [[x t]|] eqn:E; [|apply nth_error_None in E; lia]. assert (En : nth_error b1 n = Some (x, t)) by (rewrite R1 by lia; exact E). destruct (shift_ok ops b1 n x t En) as (x' & Es). assert (Ln : n < length b1) by (apply nth_error_Some; congruence). exists (upd b1 n (x', t)). split; [exact Es|]. split; [|split; [|split]].
      * rewrite (upd_map snd b1 n (x', t) (x, t) En eq_refl). exact M1.
      * intros k Lk. rewrite upd_at by exact Ln. destruct (Nat.eqb_spec k n); [lia|]. apply R1. lia.
      * intros k Lk Fk. rewrite upd_at by exact Ln. destruct (Nat.eqb_spec k n); [congruence|]. apply K1; [lia|exact Fk].
      * intros k y s Lk Fk Ek. rewrite upd_at by exact Ln. destruct (Nat.eqb_spec k n) as [->|N].
        -- rewrite E in Ek. injection Ek as <- <-. exists b1, x'. auto.
        -- apply S1; [lia|exact Fk|exact Ek].
Qed.
Lemma snap_to_proof ops b : exists r b', snap_to ta tr ops b = Ok (r, b') /\ (r = true <-> symmetric ta tr ops b') /\ map snd b' = map snd b /\ (symmetric ta tr ops b -> b' = b).
Proof.
  unfold snap_to. rewrite fine_map. cbn [bind]. destruct (forallb (fun x => x) (map (fine b ops) (seq 0 (length b)))) eqn:A.
  - exists true, b. split; [reflexivity|]. split; [|auto]. split; [intros _; now apply all_fine|reflexivity].
  - destruct (shift_loop ops b (length b) (le_n _)) as (b' & E & M & _). rewrite E. cbn [bind]. rewrite fine_map. cbn [bind]. exists (forallb (fun x => x) (map (fine b' ops) (seq 0 (length b')))), b'. split; [reflexivity|]. split; [apply all_fine|]. split; [exact M|]. intros S. apply all_fine in S. congruence.
Qed.

(** ** An atom on its own *)
Definition zero : q3 := Q3 0 0 0.
Definition add (x y : q3) : q3 := Q3 (qx x + qx y) (qy x + qy y) (qz x + qz y).
Definition tsum (l : list m3) (v : q3) : q3 := fold_right (fun m a => add (turn m v) a) zero l.
Lemma same_refl x : same x x. Proof. repeat split; reflexivity. Qed.
Lemma same_sym x y : same x y -> same y x. Proof. intros (A & B & C). repeat split; symmetry; assumption. Qed.
Lemma same_trans x y z : same x y -> same y z -> same x z. Proof. intros (A & B & C) (D & E & F). repeat split; [now rewrite A|now rewrite B|now rewrite C]. Qed.
Lemma turn_same m x y : same x y -> same (turn m x) (turn m y). Proof. intros (A & B & C). unfold turn, same. cbn [qx qy qz]. rewrite A, B, C. repeat split; reflexivity. Qed.
Lemma tsum_perm v l l' : Permutation l l' -> same (tsum l v) (tsum l' v).
Proof.
  intros P. induction P as [|m l l' P IH|m n l|l l1 l2 P1 IH1 P2 IH2]; cbn [tsum fold_right]; [apply same_refl| | |now apply (same_trans _ (tsum l1 v))].
  - destruct IH as (A & B & C). unfold add, same. cbn [qx qy qz]. unfold tsum in *. rewrite A, B, C. repeat split; reflexivity.
  - unfold add, same. cbn [qx qy qz]. repeat split; ring.
Qed.
Lemma turn_mul g m v : same (turn g (turn m v)) (turn (mul3 g m) v).
Proof.
  unfold turn, same, mul3. cbn. rewrite !inject_Z_plus, !inject_Z_mult. repeat split; ring.
Qed.
Lemma turn_tsum g v l : same (turn g (tsum l v)) (tsum (map (mul3 g) l) v).
Proof.
  induction l as [|m l IH]; cbn [tsum fold_right map].
  - unfold turn, same, zero. cbn [qx qy qz]. repeat split; ring.
  - destruct IH as (A & B & C). destruct (turn_mul g m v) as (D & E & F). unfold tsum in *. set (y := fold_right _ zero l) in *. set (z := fold_right _ zero (map (mul3 g) l)) in *. clearbody y z.
    assert (X : same (turn g (add (turn m v) y)) (add (turn g (turn m v)) (turn g y))) by (unfold turn, same, add; cbn [qx qy qz]; repeat split; ring).
    apply (same_trans _ _ _ X). unfold add, same. cbn [qx qy qz]. rewrite A, B, C, D, E, F. repeat split; reflexivity.
Qed.
Lemma wrap_unique k p e z : (k - p == e + inject_Z z)%Q -> (-(1#2) <= e)%Q -> (e < 1#2)%Q -> (wrap k p == e)%Q.
Proof.
  intros E L U. destruct (wrap_eq k p) as (y & W & L' & U'). destruct (Z.eq_dec y z) as [->|N]; [lra|exfalso].
  assert (X : (inject_Z (z - y) == wrap k p - e)%Q) by (unfold Z.sub; rewrite inject_Z_plus, inject_Z_opp; lra). assert (Y : (inject_Z (-1) < inject_Z (z - y) /\ inject_Z (z - y) < inject_Z 1)%Q) by (rewrite X; change (inject_Z (-1)) with (-1)%Q; change (inject_Z 1) with 1%Q; lra).
  destruct Y as [Y1 Y2]. rewrite <- Zlt_Qlt in Y1, Y2. lia.
Qed.
Lemma off_by m s x i j k : same (image m s) (translated s i j k) -> same (sub (image m x) x) (translated (sub (turn (rot m) (sub x s)) (sub x s)) i j k).
Proof.
  unfold image, translated, same, sub, turn. cbn [qx qy qz]. intros (A & B & C). repeat split; lra.
Qed.
Lemma difference_at m s x i j k : same (image m s) (translated s i j k) -> near [m] s x -> same (difference (image m x) x) (sub (turn (rot m) (sub x s)) (sub x s)).
Proof.
  intros S N. destruct (N m (or_introl eq_refl)) as (A1 & A2 & B1 & B2 & C1 & C2). destruct (off_by m s x i j k S) as (A & B & C). set (e := sub (turn (rot m) (sub x s)) (sub x s)) in *. unfold translated, sub in A, B, C. cbn [qx qy qz] in A, B, C. unfold same, difference. cbn [qx qy qz].
  split; [|split]; [apply (wrap_unique _ _ _ i)|apply (wrap_unique _ _ _ j)|apply (wrap_unique _ _ _ k)]; assumption.
Qed.
Lemma own_sum b k x t s ops : own_type b -> nth_error b k = Some (x, t) -> fixes ops s -> near ops s x -> forall d n, exists d', foldM (add_difference ta tr b k (x, t)) ops (d, n) = Ok (d', n + length ops) /\
  same d' (add d (sub (tsum (map rot ops) (sub x s)) (Q3 (inject_Z (Z.of_nat (length ops)) * qx (sub x s)) (inject_Z (Z.of_nat (length ops)) * qy (sub x s)) (inject_Z (Z.of_nat (length ops)) * qz (sub x s))))).
Proof.
  intros U E Fx Nr. induction ops as [|m ops IH]; intros d n; cbn [foldM].
  - exists d. split; [cbn [length]; now rewrite Nat.add_0_r|]. cbn [length map tsum fold_right]. change (inject_Z (Z.of_nat 0)) with 0%Q. unfold same, add, sub, zero. cbn [qx qy qz]. repeat split; ring.
  - unfold add_difference at 1. cbn [fst snd]. destruct (closest_to_strong ta tr Tr b t (move_point m x)) as (fo & i & y & d1 & _ & _ & _ & Ec & Ei & -> & _); [exists x; now apply nth_error_In in E|]. rewrite Ec. cbn [bind fst snd]. assert (i = k) by (apply (U i k y x t); assumption). subst i. rewrite Nat.eqb_refl. cbn [bind].
    rewrite E in Ei. injection Ei as <-. change (move_point m x) with (image m x). destruct (Fx m (or_introl eq_refl)) as (i & j & l & S). assert (N1 : near [m] s x) by (intros m' [<-|[]]; apply Nr; now left). pose proof (difference_at m s x i j l S N1) as D.
    destruct IH with (d := Q3 (qx d + qx (difference (image m x) x)) (qy d + qy (difference (image m x) x)) (qz d + qz (difference (image m x) x))) (n := Datatypes.S n) as (d' & E' & S'); [intros m' Hm; apply Fx; now right|intros m' Hm; apply Nr; now right|].
    exists d'. split; [rewrite E'; cbn [length]; f_equal; f_equal; lia|]. apply (same_trans _ _ _ S'). set (dd := difference (image m x) x) in *. clearbody dd. cbn [length map tsum fold_right]. fold (tsum (map rot ops) (sub x s)). set (T := tsum (map rot ops) (sub x s)). clearbody T. set (w := sub x s) in *. clearbody w.
    rewrite Nat2Z.inj_succ. unfold Z.succ. rewrite inject_Z_plus. change (inject_Z 1) with 1%Q. unfold same, add, sub in *. cbn [qx qy qz] in *. destruct D as (D1 & D2 & D3). rewrite D1, D2, D3. repeat split; ring.
Qed.
Lemma own_shift b k x t s ops : own_type b -> nth_error b k = Some (x, t) -> ops <> [] -> closed ops -> fixes ops s -> near ops s x -> exists x', shift_atom ta tr ops b k = Ok (upd b k (x', t)) /\ fixes ops x'.
Proof.
  intros U E Ne Cl Fx Nr. unfold shift_atom. rewrite (rd_ok _ _ _ E). cbn [bind fst snd]. destruct (own_sum b k x t s ops U E Fx Nr (Q3 0 0 0) 0) as (d & Ed & Sd). rewrite Ed. cbn [bind Nat.add fst snd]. destruct (Nat.eqb_spec (length ops) 0) as [Z|Nz]; [destruct ops; [congruence|discriminate]|].
  rewrite wr_ok by (apply nth_error_Some; congruence). eexists. split; [reflexivity|]. set (n := inject_Z (Z.of_nat (length ops))) in *. assert (Np : (0 < n)%Q) by (unfold n; change 0%Q with (inject_Z 0); rewrite <- Zlt_Qlt; lia). clearbody n. set (x' := Q3 _ _ _).
  set (T := tsum (map rot ops) (sub x s)) in *.
  assert (X : same T (Q3 (n * qx (sub x' s)) (n * qy (sub x' s)) (n * qz (sub x' s)))).
  { clear - Sd Np. destruct Sd as (A & B & C). unfold x', same, add, sub in *. cbn [qx qy qz] in *. rewrite A, B, C. repeat split; field; intros H; lra. }
  intros g Hg. destruct (Fx g Hg) as (i & j & l & S). exists i, j, l.
  assert (Y : same (turn (rot g) T) T). { apply (same_trans _ (tsum (map (mul3 (rot g)) (map rot ops)) (sub x s))); [apply turn_tsum|]. apply tsum_perm. rewrite map_map. exact (Cl g Hg). }
  clearbody T. assert (W : same (turn (rot g) (sub x' s)) (sub x' s)).
  { assert (Z : same (turn (rot g) T) (Q3 (n * qx (turn (rot g) (sub x' s))) (n * qy (turn (rot g) (sub x' s))) (n * qz (turn (rot g) (sub x' s))))). { apply (same_trans _ _ _ (turn_same _ _ _ X)). set (v := sub x' s). clearbody v. unfold turn, same. cbn [qx qy qz]. repeat split; ring. }
    destruct X as (X1 & X2 & X3), Y as (Y1 & Y2 & Y3), Z as (Z1 & Z2 & Z3). cbn [qx qy qz] in X1, X2, X3, Z1, Z2, Z3. repeat split; apply (Qmult_inj_l _ _ n); try (intros H; lra); [rewrite <- Z1, Y1, X1|rewrite <- Z2, Y2, X2|rewrite <- Z3, Y3, X3]; reflexivity. }
  destruct (off_by g s x' i j l S) as (A & B & C). destruct W as (W1 & W2 & W3). clear - A B C W1 W2 W3. clearbody x'. unfold same, translated, sub in *. cbn [qx qy qz] in *. repeat split; lra.
Qed.
Lemma own_type_map b b0 : map snd b0 = map snd b -> own_type b -> own_type b0.
Proof.
  intros M U i j x y t Ei Ej. assert (X : forall i x, nth_error b0 i = Some (x, t) -> exists y, nth_error b i = Some (y, t)). { intros i0 x0 E. assert (Y : nth_error (map snd b0) i0 = Some t) by (rewrite nth_error_map, E; reflexivity). rewrite M, nth_error_map in Y. destruct (nth_error b i0) as [[y0 t0]|]; [|discriminate]. injection Y as ->. eauto. }
  destruct (X i x Ei) as (x1 & E1). destruct (X j y Ej) as (y1 & E2). now apply (U i j x1 y1 t).
Qed.
Lemma fixed_agree ops m x' : (0 <= ta)%Q -> fixes ops x' -> In m ops -> agree_mod ta tr (image m x') x'.
Proof.
  intros T Fx Hm. destruct (Fx m Hm) as (i & j & k & A & B & C). exists i, j, k. unfold agree. assert (X : forall a c, (a == c)%Q -> ((1 - tr) * Qabs (a - c) <= ta)%Q). { intros a c H. assert (Y : (a - c == 0)%Q) by lra. rewrite Y. change (Qabs 0) with 0%Q. lra. } auto.
Qed.
Lemma snap_own_proof ops b : (0 <= ta)%Q -> ops <> [] -> closed ops -> own_type b -> (forall x t, In (x, t) b -> exists s, fixes ops s /\ near ops s x) ->
  exists b', snap_to ta tr ops b = Ok (true, b') /\ forall k x t, nth_error b k = Some (x, t) -> exists x', nth_error b' k = Some (x', t) /\ (x' = x \/ fixes ops x').
Proof.
  intros T Ne Cl U Sp. unfold snap_to. rewrite fine_map. cbn [bind]. destruct (forallb (fun x => x) (map (fine b ops) (seq 0 (length b)))) eqn:A.
  - exists b. split; [reflexivity|]. eauto.
  - destruct (shift_loop ops b (length b) (le_n _)) as (b' & E & M & R & K & S). rewrite E. cbn [bind]. rewrite fine_map. cbn [bind].
    assert (At : forall k x t, nth_error b k = Some (x, t) -> exists x', nth_error b' k = Some (x', t) /\ ((fine b ops k = true /\ x' = x) \/ fixes ops x')).
    { intros k x t Ek. assert (L : k < length b) by (apply nth_error_Some; congruence). destruct (fine b ops k) eqn:F.
      - exists x. rewrite (K k L F). auto.
      - destruct (S k x t L F Ek) as (b0 & x' & M0 & E0 & Es & Ex). exists x'. split; [exact Ex|]. right. destruct (Sp x t) as (s & Fx & Nr); [now apply nth_error_In in Ek|]. destruct (own_shift b0 k x t s ops (own_type_map b b0 M0 U) E0 Ne Cl Fx Nr) as (x2 & Es2 & Fx2). rewrite Es in Es2. injection Es2 as Eu. assert (L0 : k < length b0) by (apply nth_error_Some; congruence). assert (X : nth_error (upd b0 k (x', t)) k = nth_error (upd b0 k (x2, t)) k) by now rewrite Eu. rewrite !upd_at, Nat.eqb_refl in X by exact L0. injection X as ->. exact Fx2. }
    exists b'. split; [|intros k x t Ek; destruct (At k x t Ek) as (x' & E1 & [[_ H]|H]); eauto]. f_equal. f_equal. apply all_fine. intros m x' t Hm Hx. apply In_nth_error in Hx as (k & Ek).
    assert (X : exists x, nth_error b k = Some (x, t)). { assert (Y : nth_error (map snd b') k = Some t) by (rewrite nth_error_map, Ek; reflexivity). rewrite M, nth_error_map in Y. destruct (nth_error b k) as [[x0 t0]|]; [|discriminate]. injection Y as ->. eauto. }
    destruct X as (x & Eb). destruct (At k x t Eb) as (x2 & E2 & Or). rewrite Ek in E2. injection E2 as <-. exists x'. split; [now apply nth_error_In in Ek|]. destruct Or as [[F ->]|Fx]; [|now apply (fixed_agree ops)].
    unfold fine in F. destruct (all_after_spec b k x t ops Eb) as (r & Er & Hr). rewrite Er in F. subst r. destruct (proj1 Hr eq_refl m Hm) as (y & Hy & Ag). apply In_nth_error in Hy as (j & Ej). assert (j = k) by (apply (U j k y x t); assumption). subst j. rewrite Eb in Ej. injection Ej as <-. exact Ag.
Qed.
End Tolerance.
