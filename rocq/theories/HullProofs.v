(** Proofs about the planes of a convex hull. *)
From Coq Require Import NArith ZifyBool.
From Verif Require Import Base Array2Model Array2Proofs MatSpec UtilModel UtilSpec BinomialProofs PruneModel PruneProofs HullModel HullSpec.
Local Open Scope outcome_scope.

(** ** Geometry *)
Section Geometry.
Local Open Scope Z_scope.
Ltac vec := unfold height, orient3d, normal3, psub, pdot, pcross, dot3, cross3, minus3, plus3, times3 in *; cbn [v0 v1 v2] in *.
Lemma v3_zero x : v0 x = 0 -> v1 x = 0 -> v2 x = 0 -> x = V3 0 0 0.
Proof. destruct x as [a b c]. cbn. intros -> -> ->. reflexivity. Qed.
Lemma orient_height a b c p : orient3d a b c p = - height (a, b, c) p.
Proof. vec. ring. Qed.
Lemma height_swap a b c p : height (b, a, c) p = - height (a, b, c) p.
Proof. vec. ring. Qed.
Lemma height_turn a b c p : height (b, c, a) p = height (a, b, c) p.
Proof. vec. ring. Qed.
Lemma height_a a b c : height (a, b, c) a = 0. Proof. vec. ring. Qed.
Lemma height_b a b c : height (a, b, c) b = 0. Proof. vec. ring. Qed.
Lemma height_c a b c : height (a, b, c) c = 0. Proof. vec. ring. Qed.
(** The height is the distance along the normal. *)
Lemma height_normal t p : let '(a, b, c) := t in height t p = pdot (triple_normal t) (psub p a).
Proof. destruct t as [[a b] c]. unfold triple_normal. vec. ring. Qed.
Lemma sumsq3 x y z : x * x + y * y + z * z = 0 -> x = 0 /\ y = 0 /\ z = 0.
Proof. intros H. pose proof (Z.square_nonneg x). pose proof (Z.square_nonneg y). pose proof (Z.square_nonneg z). repeat split; apply Z.eq_square_0; lia. Qed.
Lemma pdot_pos n : n <> V3 0 0 0 -> 0 < pdot n n.
Proof.
  intros N. destruct (Z.lt_trichotomy (pdot n n) 0) as [H|[H|H]]; [|elim N|exact H].
  - unfold pdot in H. pose proof (Z.square_nonneg (v0 n)). pose proof (Z.square_nonneg (v1 n)). pose proof (Z.square_nonneg (v2 n)). lia.
  - unfold pdot in H. apply sumsq3 in H. destruct n; cbn in *. destruct H as (-> & -> & ->). reflexivity.
Qed.
Lemma v3_eq_dec (x y : v3) : {x = y} + {x <> y}.
Proof. destruct x as [a b c], y as [d e f]. destruct (Z.eq_dec a d), (Z.eq_dec b e), (Z.eq_dec c f); subst; first [left; reflexivity|right; congruence]. Qed.
(** Spanning a plane is having a normal. *)
Lemma spans_normal t : spans t <-> triple_normal t <> V3 0 0 0.
Proof.
  destruct t as [[a b] c]. unfold spans, triple_normal. split.
  - intros H E. destruct (v3_eq_dec (psub c a) (V3 0 0 0)) as [Z0|N].
    + destruct (H 0 1) as [_ K]; [|discriminate]. unfold minus3, plus3, times3, psub in *. cbn [v0 v1 v2] in *. inversion Z0. f_equal; lia.
    + pose proof (pdot_pos _ N) as P. destruct (H (pdot (psub c a) (psub c a)) (- pdot (psub b a) (psub c a))) as [K _]; [|lia].
      unfold normal3, pcross in E. injection E as E0 E1 E2. clear P N H.
      destruct a as [a0 a1 a2], b as [b0 b1 b2], c as [c0 c1 c2]. vec.
      set (x := b0 - a0) in *. set (y := b1 - a1) in *. set (z := b2 - a2) in *.
      set (u := c0 - a0). set (v := c1 - a1). set (w := c2 - a2).
      assert (F0 : y * w - z * v = 0) by (unfold x, y, z, u, v, w in *; lia).
      assert (F1 : z * u - x * w = 0) by (unfold x, y, z, u, v, w in *; lia).
      assert (F2 : x * v - y * u = 0) by (unfold x, y, z, u, v, w in *; lia).
      clearbody x y z u v w. clear E0 E1 E2. f_equal.
      * transitivity (v * (x * v - y * u) - w * (z * u - x * w)); [ring|rewrite F1, F2; ring].
      * transitivity (w * (y * w - z * v) - u * (x * v - y * u)); [ring|rewrite F0, F2; ring].
      * transitivity (u * (z * u - x * w) - v * (y * w - z * v)); [ring|rewrite F0, F1; ring].
  - intros N u v E. unfold plus3, times3, minus3 in E. injection E as E0 E1 E2.
    set (x := V3 (v0 b - v0 a) (v1 b - v1 a) (v2 b - v2 a)) in *. set (y := V3 (v0 c - v0 a) (v1 c - v1 a) (v2 c - v2 a)) in *.
    assert (En : normal3 a b c = pcross x y) by (unfold normal3, pcross, psub, x, y; cbn [v0 v1 v2]; f_equal; ring).
    rewrite En in N. cbn [v0 v1 v2] in *.
    assert (K : forall k, k * v0 (pcross x y) = 0 -> k * v1 (pcross x y) = 0 -> k * v2 (pcross x y) = 0 -> k = 0).
    { intros k H0 H1 H2. destruct (Z.eq_dec k 0) as [->|Nk]; [reflexivity|]. elim N. apply v3_zero; apply Z.mul_eq_0_r with k; auto. }
    assert (X0 : u * v0 x + v * v0 y = 0) by exact E0. assert (X1 : u * v1 x + v * v1 y = 0) by exact E1. assert (X2 : u * v2 x + v * v2 y = 0) by exact E2.
    unfold pcross in K. cbn [v0 v1 v2] in K. clear E0 E1 E2. split; apply K.
    + transitivity ((u * v1 x + v * v1 y) * v2 y - (u * v2 x + v * v2 y) * v1 y); [ring|rewrite X1, X2; ring].
    + transitivity ((u * v2 x + v * v2 y) * v0 y - (u * v0 x + v * v0 y) * v2 y); [ring|rewrite X2, X0; ring].
    + transitivity ((u * v0 x + v * v0 y) * v1 y - (u * v1 x + v * v1 y) * v0 y); [ring|rewrite X1, X0; ring].
    + transitivity ((u * v2 x + v * v2 y) * v1 x - (u * v1 x + v * v1 y) * v2 x); [ring|rewrite X1, X2; ring].
    + transitivity ((u * v0 x + v * v0 y) * v2 x - (u * v2 x + v * v2 y) * v0 x); [ring|rewrite X2, X0; ring].
    + transitivity ((u * v1 x + v * v1 y) * v0 x - (u * v0 x + v * v0 y) * v1 x); [ring|rewrite X1, X0; ring].
Qed.
Lemma colinear_normal a b c : colinear a b c = true <-> normal3 a b c = V3 0 0 0.
Proof.
  unfold colinear, predicate2. rewrite !Bool.andb_true_iff, !Z.eqb_eq. unfold normal3, pcross, psub. cbn [v0 v1 v2]. split.
  - intros [[A B] C]. f_equal; lia.
  - intros E. injection E as E0 E1 E2. lia.
Qed.
Lemma spans_colinear a b c : spans (a, b, c) <-> colinear a b c = false.
Proof. rewrite spans_normal. cbn [triple_normal]. rewrite <- colinear_normal. destruct (colinear a b c); split; congruence. Qed.

(** ** Directions *)
Lemma same_unit_iff n m : same_unit n m = true <-> pcross n m = V3 0 0 0 /\ 0 < pdot n m.
Proof.
  unfold same_unit. cbv zeta. rewrite !Bool.andb_true_iff, !Z.eqb_eq, Z.ltb_lt. split.
  - intros [[[A B] C] D]. split; [now apply v3_zero|exact D].
  - intros [E D]. rewrite E. cbn. auto.
Qed.
Lemma same_unit_refl n : n <> V3 0 0 0 -> same_unit n n = true.
Proof. intros N. apply same_unit_iff. split; [unfold pcross; f_equal; ring|now apply pdot_pos]. Qed.
Lemma pdot_nz n m : 0 < pdot n m -> m <> V3 0 0 0.
Proof. intros H ->. unfold pdot in H. cbn [v0 v1 v2] in H. lia. Qed.
Lemma pdot_comm n m : pdot n m = pdot m n. Proof. unfold pdot. ring. Qed.
Lemma pcross_comm n m : pcross n m = V3 0 0 0 -> pcross m n = V3 0 0 0.
Proof. unfold pcross. intros E. injection E as A B C. f_equal; lia. Qed.
Lemma same_unit_sym n m : same_unit n m = true -> same_unit m n = true.
Proof. rewrite !same_unit_iff. intros [A B]. split; [now apply pcross_comm|now rewrite pdot_comm]. Qed.
(** A parallel vector is a multiple. *)
Lemma parallel n m x : pcross n m = V3 0 0 0 -> pdot m m * pdot n x = pdot n m * pdot m x.
Proof.
  unfold pcross, pdot. intros E. injection E as A B C.
  transitivity ((v0 n * v0 m + v1 n * v1 m + v2 n * v2 m) * (v0 m * v0 x + v1 m * v1 x + v2 m * v2 x)
    + (v0 n * v1 m - v1 n * v0 m) * (v1 m * v0 x - v0 m * v1 x) + (v1 n * v2 m - v2 n * v1 m) * (v2 m * v1 x - v1 m * v2 x) + (v2 n * v0 m - v0 n * v2 m) * (v0 m * v2 x - v2 m * v0 x)); [ring|].
  rewrite A, B, C. ring.
Qed.
Lemma same_unit_trans n m k : same_unit n m = true -> same_unit m k = true -> same_unit n k = true.
Proof.
  rewrite !same_unit_iff. intros [A B] [C D]. pose proof (pdot_nz _ _ B) as Nm. pose proof (pdot_pos _ Nm) as Pm. split.
  - assert (Q : forall x, pdot (pcross n k) x = 0).
    { intros x. assert (E1 : pdot (pcross n k) x = pdot n (pcross k x)) by (unfold pdot, pcross; cbn [v0 v1 v2]; ring).
      pose proof (parallel n m (pcross k x) A) as P1.
      assert (E2 : pdot m (pcross k x) = pdot (pcross m k) x) by (unfold pdot, pcross; cbn [v0 v1 v2]; ring).
      rewrite E2, C in P1. assert (E3 : pdot (V3 0 0 0) x = 0) by (unfold pdot; cbn [v0 v1 v2]; ring). rewrite E3, Z.mul_0_r in P1. rewrite E1.
      apply Z.mul_eq_0 in P1. destruct P1; [lia|assumption]. }
    apply v3_zero; [specialize (Q (V3 1 0 0))|specialize (Q (V3 0 1 0))|specialize (Q (V3 0 0 1))]; unfold pdot in Q; cbn [v0 v1 v2] in Q; lia.
  - pose proof (parallel n m k A) as P. assert (0 < pdot n m * pdot m k) by (apply Z.mul_pos_pos; assumption). nia.
Qed.

(** ** Planes *)
Lemma same_plane_unit t t' : triple_normal t <> V3 0 0 0 -> same_plane t t' -> same_unit (triple_normal t) (triple_normal t') = true.
Proof.
  destruct t as [[a b] c], t' as [[a' b'] c']. intros N H. set (n := triple_normal (a, b, c)) in *. set (n' := triple_normal (a', b', c')).
  assert (G : forall w, Z.sgn (pdot n w) = Z.sgn (pdot n' (psub (plus3 a w) a'))).
  { intros w. pose proof (H (plus3 a w)) as E. rewrite (height_normal (a, b, c)), (height_normal (a', b', c')) in E. fold n n' in E.
    rewrite <- E. f_equal. unfold pdot, psub, plus3. cbn [v0 v1 v2]. ring. }
  assert (G0 : pdot n' (psub a a') = 0).
  { pose proof (G (V3 0 0 0)) as G'. replace (pdot n (V3 0 0 0)) with 0 in G' by (unfold pdot; cbn [v0 v1 v2]; ring).
    replace (psub (plus3 a (V3 0 0 0)) a') with (psub a a') in G' by (unfold psub, plus3; cbn [v0 v1 v2]; f_equal; ring).
    cbn [Z.sgn] in G'. symmetry in G'. exact (proj1 (Z.sgn_null_iff _) G'). }
  assert (G1 : forall w, Z.sgn (pdot n w) = Z.sgn (pdot n' w)).
  { intros w. rewrite G. f_equal. replace (pdot n' (psub (plus3 a w) a')) with (pdot n' (psub a a') + pdot n' w) by (unfold pdot, psub, plus3; cbn [v0 v1 v2]; ring). lia. }
  apply same_unit_iff. split.
  - assert (Q : forall e, pdot (pcross n n') e = 0).
    { intros e. pose proof (G1 (pcross n e)) as E. replace (pdot n (pcross n e)) with 0 in E by (unfold pdot, pcross; cbn [v0 v1 v2]; ring).
      cbn [Z.sgn] in E. symmetry in E. apply (proj1 (Z.sgn_null_iff _)) in E.
      assert (F : pdot (pcross n n') e = - pdot n' (pcross n e)) by (unfold pdot, pcross; cbn [v0 v1 v2]; ring). lia. }
    apply v3_zero; [specialize (Q (V3 1 0 0))|specialize (Q (V3 0 1 0))|specialize (Q (V3 0 0 1))]; unfold pdot in Q; cbn [v0 v1 v2] in Q; lia.
  - pose proof (G1 n) as E. pose proof (pdot_pos n N) as P. rewrite (proj2 (Z.sgn_pos_iff _) P) in E. symmetry in E. apply (proj1 (Z.sgn_pos_iff _)) in E. now rewrite pdot_comm.
Qed.
Lemma unit_same_plane pts t t' : bounding pts t -> bounding pts t' -> same_unit (triple_normal t) (triple_normal t') = true -> same_plane t t'.
Proof.
  destruct t as [[a b] c], t' as [[a' b'] c']. intros ((Ia & _ & _) & S & H & _) ((Ia' & _ & _) & S' & H' & _) U. apply same_unit_iff in U. destruct U as [C P].
  set (n := triple_normal (a, b, c)) in *. set (n' := triple_normal (a', b', c')) in *.
  apply spans_normal in S. apply spans_normal in S'. fold n in S. fold n' in S'.
  pose proof (pdot_pos _ S') as P'. pose proof (fun x => parallel n n' x C) as M.
  pose proof (H a' Ia') as H1. rewrite (height_normal (a, b, c)) in H1. fold n in H1.
  pose proof (H' a Ia) as H2. rewrite (height_normal (a', b', c')) in H2. fold n' in H2.
  assert (E : pdot n' (psub a' a) = 0).
  { assert (F : pdot n' (psub a' a) = - pdot n' (psub a a')) by (unfold pdot, psub; cbn [v0 v1 v2]; ring). pose proof (M (psub a' a)). nia. }
  intros p. rewrite (height_normal (a, b, c)), (height_normal (a', b', c')). fold n n'.
  assert (F : pdot n' (psub p a) = pdot n' (psub p a')).
  { replace (pdot n' (psub p a)) with (pdot n' (psub p a') + pdot n' (psub a' a)) by (unfold pdot, psub; cbn [v0 v1 v2]; ring). lia. }
  pose proof (M (psub p a)) as Q. rewrite F in Q.
  rewrite <- (Z.mul_1_l (Z.sgn (pdot n (psub p a)))), <- (proj2 (Z.sgn_pos_iff _) P'), <- Z.sgn_mul, Q, Z.sgn_mul, (proj2 (Z.sgn_pos_iff _) P). lia.
Qed.
End Geometry.

(** ** Loops *)
Definition above (pts : list v3) (t : plane) : bool := forallb (fun p => (height t p <=? 0)%Z) pts.
Definition below (pts : list v3) (t : plane) : bool := forallb (fun p => (0 <=? height t p)%Z) pts.
Lemma sides_ok pts i j k a b c : nth_error pts i = Some a -> nth_error pts j = Some b -> nth_error pts k = Some c ->
  forall pre rest positive negative, pts = pre ++ rest ->
  sides pts a b c i j k (seq (length pre) (length rest)) positive negative =
  Ok (positive && above rest (a, b, c), negative && below rest (a, b, c)).
Proof.
  intros Hi Hj Hk. intros pre rest. revert pre. induction rest as [|p rest IH]; intros pre positive negative E; cbn [length seq sides above below forallb].
  - now rewrite !Bool.andb_true_r.
  - assert (Ep : nth_error pts (length pre) = Some p) by (rewrite E, nth_error_app2, Nat.sub_diag by lia; reflexivity).
    specialize (IH (pre ++ [p])). rewrite app_length in IH. cbn [length] in IH. rewrite Nat.add_1_r in IH.
    assert (E' : pts = (pre ++ [p]) ++ rest) by now rewrite <- app_assoc.
    destruct (positive || negative) eqn:PN.
    2:{ apply Bool.orb_false_iff in PN. destruct PN as [-> ->]. reflexivity. }
    destruct ((length pre =? i) || (length pre =? j) || (length pre =? k)) eqn:X.
    + rewrite IH by exact E'. assert (H0 : height (a, b, c) p = 0%Z).
      { apply Bool.orb_true_iff in X. rewrite Bool.orb_true_iff, !Nat.eqb_eq in X. destruct X as [[X|X]|X]; rewrite X in Ep; rewrite Ep in *.
        - injection Hi as ->. apply height_a. - injection Hj as ->. apply height_b. - injection Hk as ->. apply height_c. }
      rewrite H0. reflexivity.
    + unfold rd at 1. rewrite Ep. cbn [bind]. rewrite IH by exact E'. rewrite orient_height. f_equal. f_equal; rewrite Bool.andb_assoc; do 2 f_equal; lia.
Qed.
(** What one triple of points contributes. *)
Definition found (pts : list v3) (ijk : nat * nat * nat) : list triple :=
  let '(i, j, k) := ijk in
  match nth_error pts i, nth_error pts j, nth_error pts k with
  | Some a, Some b, Some c =>
    if colinear a b c then [] else
    if xorb (above pts (a, b, c)) (below pts (a, b, c)) then [if above pts (a, b, c) then (a, b, c) else (b, a, c)] else []
  | _, _, _ => []
  end.
Lemma hull_step_ok pts room i j k acc : i < length pts -> j < length pts -> k < length pts -> (N.of_nat (length acc) < room)%N ->
  hull_step pts room i j acc k = Ok (acc ++ found pts (i, j, k)).
Proof.
  intros Hi Hj Hk Hr. unfold hull_step, found, rd.
  destruct (nth_error pts i) as [a|] eqn:Ei; [|apply nth_error_None in Ei; lia].
  destruct (nth_error pts j) as [b|] eqn:Ej; [|apply nth_error_None in Ej; lia].
  destruct (nth_error pts k) as [c|] eqn:Ek; [|apply nth_error_None in Ek; lia]. cbn [bind].
  destruct (colinear a b c); [now rewrite app_nil_r|].
  change (seq 0 (length pts)) with (seq (length (@nil v3)) (length pts)). rewrite (sides_ok pts i j k a b c Ei Ej Ek [] pts true true eq_refl). cbn [bind andb].
  destruct (xorb _ _); [|now rewrite app_nil_r]. apply N.ltb_lt in Hr. now rewrite Hr.
Qed.
Lemma found_short pts x : length (found pts x) <= 1.
Proof. destruct x as [[i j] k]. unfold found. destruct (nth_error pts i), (nth_error pts j), (nth_error pts k); cbn; try lia. destruct (colinear _ _ _); [cbn; lia|]. destruct (xorb _ _); cbn; lia. Qed.

(** All triples of numbers in increasing order. *)
Definition pairs_from (no i : nat) : list (nat * nat) := flat_map (fun j => map (pair j) (seq (S j) (no - S j))) (seq (S i) (no - 1 - S i)).
Definition triples (no : nat) : list (nat * nat * nat) := flat_map (fun i => map (fun jk => (i, fst jk, snd jk)) (pairs_from no i)) (seq 0 (no - 2)).
Lemma foldM_flat {A B C} (f : C -> B -> outcome C) (g : A -> list B) l : forall c, foldM (fun c a => foldM f (g a) c) l c = foldM f (flat_map g l) c.
Proof. induction l as [|a l IH]; intros c; cbn [foldM flat_map]; [reflexivity|]. rewrite foldM_app. destruct (foldM f (g a) c); cbn [bind]; auto. Qed.
Lemma foldM_map {A B C} (f : C -> B -> outcome C) (g : A -> B) l : forall c, foldM (fun c a => f c (g a)) l c = foldM f (map g l) c.
Proof. induction l as [|a l IH]; intros c; cbn [foldM map]; [reflexivity|]. destruct (f c (g a)); cbn [bind]; auto. Qed.
Definition step3 (pts : list v3) (room : N) (acc : list triple) (ijk : nat * nat * nat) := let '(i, j, k) := ijk in hull_step pts room i j acc k.
Lemma loops_flat pts room no : forall acc,
  foldM (fun acc i => foldM (fun acc j => foldM (hull_step pts room i j) (seq (S j) (no - S j)) acc) (seq (S i) (no - 1 - S i)) acc) (seq 0 (no - 2)) acc =
  foldM (step3 pts room) (triples no) acc.
Proof.
  intros acc. unfold triples. rewrite <- foldM_flat. apply foldM_ext. intros c i _.
  unfold pairs_from. transitivity (foldM (step3 pts room) (flat_map (fun j => map (fun k => (i, j, k)) (seq (S j) (no - S j))) (seq (S i) (no - 1 - S i))) c).
  - rewrite <- foldM_flat. apply foldM_ext. intros d j _. rewrite <- foldM_map. reflexivity.
  - f_equal. generalize (seq (S i) (no - 1 - S i)). intros l. induction l as [|j l IH]; cbn [flat_map map]; [reflexivity|]. rewrite map_app, IH, map_map. reflexivity.
Qed.
Lemma in_triples no i j k : In (i, j, k) (triples no) <-> i < j < k /\ k < no.
Proof.
  unfold triples, pairs_from. rewrite in_flat_map. split.
  - intros (i' & Hi & H). apply in_map_iff in H. destruct H as ([j' k'] & E & H). cbn in E. injection E as -> -> ->.
    apply in_flat_map in H. destruct H as (j'' & Hj & H). apply in_map_iff in H. destruct H as (k' & E & H). injection E as -> ->.
    apply in_seq in Hi, Hj, H. lia.
  - intros [H1 H2]. exists i. split; [apply in_seq; lia|]. apply in_map_iff. exists (j, k). split; [reflexivity|].
    apply in_flat_map. exists j. split; [apply in_seq; lia|]. apply in_map_iff. exists k. split; [reflexivity|]. apply in_seq. lia.
Qed.
Lemma choose_1 n : choose n 1 = N.of_nat n.
Proof. induction n as [|n IH]; [reflexivity|]. change (choose (S n) 1) with (choose n 0 + choose n 1)%N. rewrite IH. destruct n; cbn [choose]; lia. Qed.
Lemma pairs_count n : forall s, N.of_nat (length (flat_map (fun j => map (pair j) (seq (S j) (s + n - S j))) (seq s (n - 1)))) = choose n 2.
Proof.
  induction n as [|n IH]; intros s; [reflexivity|]. change (choose (S n) 2) with (choose n 1 + choose n 2)%N. rewrite choose_1, <- (IH (S s)).
  destruct n as [|n]; [reflexivity|]. replace (S (S n) - 1) with (S n) by lia. cbn [seq flat_map]. rewrite app_length, map_length, seq_length.
  replace (S n - 1) with n by lia. replace (S s + S n) with (s + S (S n)) by lia. lia.
Qed.
Lemma triples_count n : forall s, N.of_nat (length (flat_map (fun i => map (fun jk : nat * nat => (i, fst jk, snd jk)) (pairs_from (s + n) i)) (seq s (n - 2)))) = choose n 3.
Proof.
  induction n as [|n IH]; intros s; [reflexivity|]. change (choose (S n) 3) with (choose n 2 + choose n 3)%N. rewrite <- (IH (S s)).
  destruct n as [|[|n]]; [reflexivity|reflexivity|]. replace (S (S (S n)) - 2) with (S n) by lia. cbn [seq flat_map]. rewrite app_length, map_length.
  replace (S (S n) - 2) with n by lia. replace (S s + S (S n)) with (s + S (S (S n))) by lia.
  rewrite Nat2N.inj_add. f_equal. unfold pairs_from. rewrite <- (pairs_count (S (S n)) (S s)). f_equal. f_equal. 
  replace (s + S (S (S n)) - 1 - S s) with (S (S n) - 1) by lia. replace (S s + S (S n)) with (s + S (S (S n))) by lia. reflexivity.
Qed.
Lemma loops_ok pts room l : (forall i j k, In (i, j, k) l -> i < length pts /\ j < length pts /\ k < length pts) -> forall acc,
  (N.of_nat (length acc + length l) <= room)%N -> foldM (step3 pts room) l acc = Ok (acc ++ flat_map (found pts) l) /\ length (acc ++ flat_map (found pts) l) <= length acc + length l.
Proof.
  intros H. induction l as [|[[i j] k] l IH]; intros acc Hr; cbn [foldM flat_map length] in *.
  - rewrite app_nil_r. split; [reflexivity|lia].
  - destruct (H i j k (or_introl eq_refl)) as (A & B & C). cbn [step3]. rewrite hull_step_ok by (auto; lia). cbn [bind].
    pose proof (found_short pts (i, j, k)) as F. destruct (IH ltac:(intros; apply H; now right) (acc ++ found pts (i, j, k))) as [E L].
    + rewrite app_length. lia.
    + rewrite E, <- app_assoc. split; [reflexivity|]. rewrite !app_length in *. lia.
Qed.

(** ** Duplicates *)
Section Unique.
Variables (A P : Type) (same : P -> P -> bool) (f : A -> P).
Hypothesis Hs : forall x y, same x y = true -> same y x = true.
Hypothesis Ht : forall x y z, same x y = true -> same y z = true -> same x z = true.
Definition firsts (l : list A) : list A := pick (is_unique P same (map f l)) l.
Lemma is_unique_app (l : list P) x : is_unique P same (l ++ [x]) = is_unique P same l ++ [forallb (fun y => negb (same x y)) l].
Proof.
  unfold is_unique. rewrite app_length. cbn [length]. rewrite Nat.add_1_r, seq_S, map_app. cbn [map Nat.add]. f_equal.
  - apply map_ext_in. intros i Hi. apply in_seq in Hi. rewrite nth_error_app1, firstn_app by lia. replace (i - length l) with 0 by lia. cbn [firstn]. now rewrite app_nil_r.
  - rewrite nth_error_app2, Nat.sub_diag by lia. cbn [nth_error]. rewrite firstn_app, Nat.sub_diag, firstn_all. cbn [firstn]. now rewrite app_nil_r.
Qed.
Lemma is_unique_len (l : list P) : length (is_unique P same l) = length l.
Proof. unfold is_unique. now rewrite map_length, seq_length. Qed.
Lemma pick_app (k1 k2 : list bool) : forall l1 l2 : list A, length k1 = length l1 -> pick (k1 ++ k2) (l1 ++ l2) = pick k1 l1 ++ pick k2 l2.
Proof. induction k1 as [|b k1 IH]; intros [|x l1] l2 H; try discriminate; [reflexivity|]. cbn [app pick]. injection H as H. destruct b; cbn [app]; rewrite IH; auto. Qed.
Lemma firsts_app l x : firsts (l ++ [x]) = firsts l ++ (if forallb (fun y => negb (same (f x) (f y))) l then [x] else []).
Proof.
  unfold firsts. rewrite map_app. cbn [map]. rewrite is_unique_app, pick_app by (rewrite is_unique_len, map_length; reflexivity).
  f_equal. replace (forallb (fun y => negb (same (f x) y)) (map f l)) with (forallb (fun y => negb (same (f x) (f y))) l); [destruct (forallb _ l); reflexivity|].
  induction l as [|y l IH]; cbn; [reflexivity|]. now rewrite IH.
Qed.
Lemma firsts_in l x : In x (firsts l) -> In x l.
Proof.
  induction l as [|y l IH] using rev_ind; [intros []|]. rewrite firsts_app, !in_app_iff. intros [H|H]; [left; auto|]. destruct (forallb _ _); [right; exact H|destruct H].
Qed.
Lemma firsts_cover l : forall x, In x l -> same (f x) (f x) = true -> exists y, In y (firsts l) /\ same (f x) (f y) = true.
Proof.
  induction l as [|z l IH] using rev_ind; [intros x []|]. intros w Hw Rw. rewrite firsts_app. apply in_app_iff in Hw. destruct Hw as [Hw|[->|[]]].
  - destruct (IH w Hw Rw) as (y & Hy & E). exists y. split; [apply in_app_iff; now left|exact E].
  - destruct (forallb _ l) eqn:F; [exists w; split; [apply in_app_iff; right; now left|exact Rw]|].
    apply Bool.not_true_iff_false in F. rewrite forallb_forall in F.
    destruct (existsb (fun y => same (f w) (f y)) l) eqn:G.
    + apply existsb_exists in G. destruct G as (y & Hy & E). assert (Ry : same (f y) (f y) = true) by (eapply Ht; [apply Hs; exact E|exact E]).
      destruct (IH y Hy Ry) as (u & Hu & Eu). exists u. split; [apply in_app_iff; now left|]. eapply Ht; eauto.
    + elim F. intros y Hy. destruct (same (f w) (f y)) eqn:Q; [|reflexivity]. assert (existsb (fun y => same (f w) (f y)) l = true) by (apply existsb_exists; eauto). congruence.
Qed.
Lemma ordpairs_app {B} (R : B -> B -> Prop) l x : ForallOrdPairs R l -> Forall (fun y => R y x) l -> ForallOrdPairs R (l ++ [x]).
Proof.
  induction l as [|a l IH]; intros H F; cbn [app]; [repeat constructor|]. inversion H; subst. inversion F; subst. constructor; [|auto].
  apply Forall_app. split; [assumption|]. constructor; [assumption|constructor].
Qed.
Lemma firsts_distinct l : ForallOrdPairs (fun x y => same (f x) (f y) = false) (firsts l).
Proof.
  induction l as [|z l IH] using rev_ind; [constructor|]. rewrite firsts_app. destruct (forallb _ l) eqn:F; [|rewrite app_nil_r; exact IH].
  apply ordpairs_app; [exact IH|]. apply Forall_forall. intros y Hy. apply firsts_in in Hy. rewrite forallb_forall in F. specialize (F y Hy).
  destruct (same (f y) (f z)) eqn:E; [|reflexivity]. apply Hs in E. now rewrite E in F.
Qed.
End Unique.

(** ** The planes *)
Lemma above_iff pts t : above pts t = true <-> forall p, In p pts -> (height t p <= 0)%Z.
Proof. unfold above. rewrite forallb_forall. split; intros H p Hp; specialize (H p Hp); lia. Qed.
Lemma below_iff pts t : below pts t = true <-> forall p, In p pts -> (0 <= height t p)%Z.
Proof. unfold below. rewrite forallb_forall. split; intros H p Hp; specialize (H p Hp); lia. Qed.
Lemma not_all (f : v3 -> bool) l : forallb f l = false -> exists x, In x l /\ f x = false.
Proof.
  induction l as [|a l IH]; cbn [forallb]; [discriminate|]. destruct (f a) eqn:E; cbn [andb]; [|intros _; exists a; split; [now left|exact E]].
  intros H. destruct (IH H) as (x & Hx & Ex). exists x. split; [now right|exact Ex].
Qed.
Lemma found_bounding pts x t : In t (found pts x) -> bounding pts t.
Proof.
  destruct x as [[i j] k]. unfold found. destruct (nth_error pts i) as [a|] eqn:Ei; [|intros []]. destruct (nth_error pts j) as [b|] eqn:Ej; [|intros []].
  destruct (nth_error pts k) as [c|] eqn:Ek; [|intros []]. apply nth_error_In in Ei, Ej, Ek. destruct (colinear a b c) eqn:C; [intros []|].
  apply spans_colinear in C. assert (C' : spans (b, a, c)).
  { apply spans_normal. apply spans_normal in C. cbn [triple_normal] in *. intros E. apply C. unfold normal3, pcross, psub in *. cbn [v0 v1 v2] in *. injection E as E0 E1 E2. f_equal; lia. }
  destruct (above pts (a, b, c)) eqn:Ab, (below pts (a, b, c)) eqn:Be; cbn [xorb]; intros H; try (destruct H as [<-|[]]); try (destruct H; fail).
  - split; [auto|]. split; [exact C|]. split; [now apply above_iff|]. apply not_all in Be. destruct Be as (p & Hp & E). exists p. split; [exact Hp|lia].
  - split; [auto|]. split; [exact C'|]. rewrite below_iff in Be. split; [intros p Hp; rewrite height_swap; specialize (Be p Hp); lia|].
    apply not_all in Ab. destruct Ab as (p & Hp & E). exists p. split; [exact Hp|]. rewrite height_swap. lia.
Qed.
Lemma bounding_found pts t : bounding pts t -> exists i j k, i < j < k /\ k < length pts /\ exists t', found pts (i, j, k) = [t'] /\ forall p, height t' p = height t p.
Proof.
  destruct t as [[a b] c]. intros ((Ia & Ib & Ic) & S & H & q & Hq & Q).
  apply In_nth_error in Ia, Ib, Ic. destruct Ia as [i Ei], Ib as [j Ej], Ic as [k Ek].
  assert (G : forall i j k a' b' c' s, i < j < k -> nth_error pts i = Some a' -> nth_error pts j = Some b' -> nth_error pts k = Some c' ->
    (forall p, height (a', b', c') p = if s : bool then height (a, b, c) p else - height (a, b, c) p)%Z -> spans (a', b', c') ->
    exists i j k, i < j < k /\ k < length pts /\ exists t', found pts (i, j, k) = [t'] /\ forall p, height t' p = height (a, b, c) p).
  { clear i j k Ei Ej Ek. intros i j k a' b' c' s O Ei Ej Ek Hh Sp. exists i, j, k. split; [exact O|]. split; [apply nth_error_Some; congruence|].
    unfold found. rewrite Ei, Ej, Ek. apply spans_colinear in Sp. rewrite Sp. destruct s.
    - assert (above pts (a', b', c') = true) as -> by (apply above_iff; intros p Hp; rewrite Hh; auto).
      assert (below pts (a', b', c') = false) as ->.
      { apply Bool.not_true_iff_false. rewrite below_iff. intros K. specialize (K q Hq). rewrite Hh in K. lia. }
      cbn [xorb]. eexists. split; [reflexivity|exact Hh].
    - assert (above pts (a', b', c') = false) as ->.
      { apply Bool.not_true_iff_false. rewrite above_iff. intros K. specialize (K q Hq). rewrite Hh in K. lia. }
      assert (below pts (a', b', c') = true) as -> by (apply below_iff; intros p Hp; rewrite Hh; specialize (H p Hp); lia).
      cbn [xorb]. eexists. split; [reflexivity|]. intros p. rewrite height_swap, Hh. lia. }
  apply spans_normal in S. cbn [triple_normal] in S.
  assert (SP : forall a' b' c', normal3 a' b' c' = normal3 a b c \/ normal3 a' b' c' = psub (V3 0 0 0) (normal3 a b c) -> spans (a', b', c')).
  { intros a' b' c' E. apply spans_normal. cbn [triple_normal]. destruct E as [-> | ->]; [exact S|]. intros E. apply S. clear - E. destruct (normal3 a b c) as [x y z]. unfold psub in E. cbn [v0 v1 v2] in E. assert (0 - x = 0 /\ 0 - y = 0 /\ 0 - z = 0)%Z as (X & Y & W) by (repeat split; congruence). f_equal; lia. }
  assert (Nij : i <> j) by (intros <-; rewrite Ei in Ej; injection Ej as <-; apply S; unfold normal3, pcross, psub; cbn [v0 v1 v2]; f_equal; ring).
  assert (Nik : i <> k) by (intros <-; rewrite Ei in Ek; injection Ek as <-; apply S; unfold normal3, pcross, psub; cbn [v0 v1 v2]; f_equal; ring).
  assert (Njk : j <> k) by (intros <-; rewrite Ej in Ek; injection Ek as <-; apply S; unfold normal3, pcross, psub; cbn [v0 v1 v2]; f_equal; ring).
  assert (HH : forall x y z : v3, True) by auto. clear HH.
  Ltac nrm := unfold normal3, pcross, psub; cbn [v0 v1 v2]; f_equal; ring.
  Ltac hgt := intros p; unfold height, dot3, cross3, minus3; cbn [v0 v1 v2]; ring.
  destruct (Nat.lt_total i j) as [Lij|[?|Lij]]; [|easy|]; (destruct (Nat.lt_total j k) as [Ljk|[?|Ljk]]; [|easy|]); (destruct (Nat.lt_total i k) as [Lik|[?|Lik]]; [|easy|]); try lia.
  - apply (G i j k a b c true); [lia|assumption..|hgt|apply SP; left; nrm].
  - apply (G i k j a c b false); [lia|assumption..|hgt|apply SP; right; nrm].
  - apply (G k i j c a b true); [lia|assumption..|hgt|apply SP; left; nrm].
  - apply (G j i k b a c false); [lia|assumption..|hgt|apply SP; right; nrm].
  - apply (G j k i b c a true); [lia|assumption..|hgt|apply SP; left; nrm].
  - apply (G k j i c b a false); [lia|assumption..|hgt|apply SP; right; nrm].
Qed.
Lemma choose_three n : (3 <= n)%nat -> (choose n 3 * 6 = N.of_nat n * (N.of_nat n - 1) * (N.of_nat n - 2))%N.
Proof.
  intros H. pose proof (choose_fact n 3) as F. rewrite !falling_step, falling_0 in F by lia. change (nfact 3) with 6%N in F. rewrite F.
  change (N.of_nat 0) with 0%N. change (N.of_nat 1) with 1%N. change (N.of_nat 2) with 2%N. lia.
Qed.
Lemma hull_planes_proof : forall fuel pts, 4 <= length pts -> (choose (length pts) 3 < 2 ^ 32)%N -> length pts < fuel ->
  exists planes, convex_hull_planes fuel pts = Ok planes /\ (forall t, In t planes -> bounding pts t) /\
    (forall t, bounding pts t -> exists t', In t' planes /\ same_plane t t') /\
    ForallOrdPairs (fun t t' => ~ same_plane t t') planes.
Proof.
  intros fuel pts H4 Hc Hf. unfold convex_hull_planes. replace (length pts <? 4) with false by lia.
  assert (L : (N.of_nat (length pts) <= 2 ^ 21)%N).
  { pose proof (choose_three (length pts) ltac:(lia)) as C. destruct (N.le_gt_cases (N.of_nat (length pts)) (2 ^ 21)) as [L|L]; [exact L|exfalso].
    assert (2 ^ 21 * 2 ^ 20 * 2 ^ 20 <= N.of_nat (length pts) * (N.of_nat (length pts) - 1) * (N.of_nat (length pts) - 2))%N by (repeat apply N.mul_le_mono; lia).
    assert (2 ^ 32 * 6 < 2 ^ 21 * 2 ^ 20 * 2 ^ 20)%N by reflexivity. lia. }
  rewrite binomial_three_proof by (auto; lia). cbn [bind]. replace (2 ^ 32 - 1 <? choose (length pts) 3)%N with false by lia.
  rewrite loops_flat. pose proof (triples_count (length pts) 0) as TC. cbn [Nat.add] in TC. fold (triples (length pts)) in TC.
  destruct (loops_ok pts (choose (length pts) 3) (triples (length pts))) with (acc := @nil triple) as [E LE].
  { intros i j k Hi. apply in_triples in Hi. lia. }
  { cbn [length Nat.add]. lia. }
  rewrite E. cbn [bind app]. cbn [app length Nat.add] in LE. set (found_planes := flat_map (found pts) (triples (length pts))) in *.
  replace (choose (length pts) 3 <? N.of_nat (length found_planes))%N with false by lia.
  assert (B : forall t, In t found_planes -> bounding pts t).
  { intros t Ht. apply in_flat_map in Ht. destruct Ht as (x & _ & Ht). now apply found_bounding in Ht. }
  unfold extract. rewrite is_unique_len, map_length, Nat.ltb_irrefl. fold (firsts triple v3 same_unit triple_normal found_planes).
  eexists. split; [reflexivity|]. split; [|split].
  - intros t Ht. apply (firsts_in triple v3 same_unit triple_normal same_unit_sym same_unit_trans) in Ht. exact (B t Ht).
  - intros t Ht. destruct (bounding_found pts t Ht) as (i & j & k & O & K & t' & F & Hh).
    assert (It' : In t' found_planes). { unfold found_planes. apply in_flat_map. exists (i, j, k). split; [now apply in_triples|]. rewrite F. now left. }
    assert (Bt' := B t' It'). assert (R : same_unit (triple_normal t') (triple_normal t') = true) by (apply same_unit_refl; apply spans_normal; apply Bt').
    destruct (firsts_cover triple v3 same_unit triple_normal same_unit_sym same_unit_trans found_planes t' It' R) as (u & Hu & Eu).
    exists u. split; [exact Hu|]. intros p. rewrite <- Hh. apply (firsts_in triple v3 same_unit triple_normal same_unit_sym same_unit_trans) in Hu. apply (unit_same_plane pts t' u Bt' (B u Hu) Eu).
  - pose proof (firsts_distinct triple v3 same_unit triple_normal same_unit_sym same_unit_trans found_planes) as D.
    assert (W : forall x, In x (firsts triple v3 same_unit triple_normal found_planes) -> bounding pts x) by (intros x Hx; apply (firsts_in triple v3 same_unit triple_normal same_unit_sym same_unit_trans) in Hx; auto).
    revert D W. generalize (firsts triple v3 same_unit triple_normal found_planes). intros l D W. induction D as [|x l F D IH]; constructor.
    + rewrite Forall_forall in *. intros y Hy Hsp. specialize (F y Hy). apply same_plane_unit in Hsp; [congruence|]. apply spans_normal. apply (W x). now left.
    + apply IH. intros y Hy. apply W. now right.
Qed.
Lemma hull_throws_proof : forall fuel pts, (length pts < 4 -> convex_hull_planes fuel pts = Throw) /\
  (4 <= length pts -> (2 ^ 32 <= choose (length pts) 3)%N -> (N.of_nat (length pts) <= 2 ^ 21)%N -> length pts < fuel -> convex_hull_planes fuel pts = Throw).
Proof.
  intros fuel pts. unfold convex_hull_planes. split; intros H.
  - replace (length pts <? 4) with true by lia; reflexivity.
  - intros Hc Hl Hf. replace (length pts <? 4) with false by lia. rewrite binomial_three_proof by (auto; lia). cbn [bind].
    replace (2 ^ 32 - 1 <? choose (length pts) 3)%N with true by lia; reflexivity.
Qed.
Lemma hull_flat_proof : forall fuel pts, 4 <= length pts -> (choose (length pts) 3 < 2 ^ 32)%N -> length pts < fuel -> coplanar pts ->
  convex_hull_planes fuel pts = Ok [].
Proof.
  intros fuel pts H4 Hc Hf (n & d & Nn & Hn). destruct (hull_planes_proof fuel pts H4 Hc Hf) as ([|t l] & E & B & _); [exact E|exfalso].
  destruct (B t (or_introl eq_refl)) as (I & S & _ & q & Hq & Q). destruct t as [[a b] c]. destruct I as (Ia & Ib & Ic).
  apply Hn in Ia, Ib, Ic, Hq. assert (K : forall x, (dot3 n (minus3 x a) = dot3 n x - dot3 n a)%Z) by (intros x; unfold dot3, minus3; cbn [v0 v1 v2]; ring).
  set (x := minus3 b a) in *. set (y := minus3 c a) in *. set (z := minus3 q a) in *.
  assert (X : dot3 n x = 0%Z) by (unfold x; rewrite K; lia). assert (Y : dot3 n y = 0%Z) by (unfold y; rewrite K; lia). assert (Z0 : dot3 n z = 0%Z) by (unfold z; rewrite K; lia).
  assert (D : (height (a, b, c) q * v0 n = 0 /\ height (a, b, c) q * v1 n = 0 /\ height (a, b, c) q * v2 n = 0)%Z).
  { unfold height. fold x y z. clearbody x y z. clear - X Y Z0. destruct x as [x0 x1 x2], y as [y0 y1 y2], z as [z0 z1 z2], n as [n0 n1 n2]. unfold dot3, cross3 in *. cbn [v0 v1 v2] in *.
    repeat split.
    - transitivity ((n0 * z0 + n1 * z1 + n2 * z2) * (x1 * y2 - x2 * y1) + (n0 * x0 + n1 * x1 + n2 * x2) * (y1 * z2 - y2 * z1) + (n0 * y0 + n1 * y1 + n2 * y2) * (z1 * x2 - z2 * x1))%Z; [ring|rewrite X, Y, Z0; ring].
    - transitivity ((n0 * z0 + n1 * z1 + n2 * z2) * (x2 * y0 - x0 * y2) + (n0 * x0 + n1 * x1 + n2 * x2) * (y2 * z0 - y0 * z2) + (n0 * y0 + n1 * y1 + n2 * y2) * (z2 * x0 - z0 * x2))%Z; [ring|rewrite X, Y, Z0; ring].
    - transitivity ((n0 * z0 + n1 * z1 + n2 * z2) * (x0 * y1 - x1 * y0) + (n0 * x0 + n1 * x1 + n2 * x2) * (y0 * z1 - y1 * z0) + (n0 * y0 + n1 * y1 + n2 * y2) * (z0 * x1 - z1 * x0))%Z; [ring|rewrite X, Y, Z0; ring]. }
  apply Nn. destruct D as (D0 & D1 & D2). apply v3_zero; nia.
Qed.
