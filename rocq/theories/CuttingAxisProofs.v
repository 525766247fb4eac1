(** The stationary axes of operations, and the planes through them. *)
From Coq Require Import QArith Lqa Qfield.
From Verif Require Import Base Array2Model MatSpec IsometrySpec IsometryModel IsometryProofs QPoint CutModel CutSpec CutGeomProofs VolumeSpec VolumeProofs MoveProofs SameSetProofs AdditiveProofs.
From Verif Require Import ZoneModel ZoneSpec ApplyModel ApplySpec LinearProofs ApplyProofs CheckIrProofs WedgeModel CuttingModel CuttingSpec CuttingCoverProofs CuttingRunProofs.
Local Open Scope Z_scope.

(** ** The table of axes *)
Lemma v3_eqb_eq x y : v3_eqb x y = true <-> x = y.
Proof.
  destruct x as [x0 x1 x2], y as [y0 y1 y2]. unfold v3_eqb. cbn [v0 v1 v2]. rewrite !andb_true_iff, !Z.eqb_eq. split; [intros ((-> & ->) & ->); reflexivity|intros E; injection E; auto].
Qed.
Lemma m3_eqb_eq x y : m3_eqb x y = true <-> x = y.
Proof.
  unfold m3_eqb. rewrite !andb_true_iff, !v3_eqb_eq. destruct x, y. unfold row0, row1, row2. cbn. split; [intros ((E & F) & G); congruence|intros E; injection E; intros; subst; auto].
Qed.
Lemma proper_eq r : det3 r = 1 \/ det3 r = -1 -> proper_rotation r = scale3 (det3 r) r.
Proof. intros [D|D]; unfold proper_rotation; rewrite D; cbn [Z.eqb Pos.eqb]; destruct r as [a b c d e f g h i]; unfold mul3, scale3; cbn [m00 m01 m02 m10 m11 m12 m20 m21 m22]; f_equal; ring. Qed.
Lemma axis_stationary_proof r : det3 r = 1 \/ det3 r = -1 -> axis r <> V3 0 0 0 -> stationary r (axis r).
Proof.
  intros D N. split; [exact N|]. revert N. unfold axis. destruct (m3_eqb (proper_rotation r) I3); [congruence|]. destruct (find _ rot_axes) as [x|] eqn:F; [|congruence]. intros _.
  apply find_some in F. destruct F as (_ & F). apply v3_eqb_eq in F. rewrite (proper_eq r D) in F. destruct x as [x0 x1 x2]. unfold act3, scale3 in *. cbn [v0 v1 v2 m00 m01 m02 m10 m11 m12 m20 m21 m22] in *. injection F as E0 E1 E2.
  destruct D as [D|D]; rewrite D in *; f_equal; lia.
Qed.
Definition small (x : Z) : Prop := -1 <= x <= 1.
Fixpoint rows_of (n : nat) : list (list Z) := match n with O => [[]] | S n => flat_map (fun l => map (fun v => v :: l) [-1; 0; 1]) (rows_of n) end.
Definition as_m3 (l : list Z) : m3 := match l with [a; b; c; d; e; f; g; h; i] => M3 a b c d e f g h i | _ => I3 end.
Definition found_axis (r : m3) : bool :=
  let p := proper_rotation r in
  if negb (det3 p =? 1) then true
  else if m3_eqb p I3 then true
  else if negb (existsb (fun k => m3_eqb (pow3 p k) I3) [2; 3; 4; 5; 6]%nat) then true
  else match find (fun x => v3_eqb (act3 p x) x) rot_axes with Some _ => true | None => false end.
Lemma all_found : forallb (fun l => found_axis (as_m3 l)) (rows_of 9) = true.
Proof. vm_compute. reflexivity. Qed.
Lemma rows_of_in l : Forall small l -> In l (rows_of (length l)).
Proof.
  induction l as [|x l IH]; intros F; [left; reflexivity|]. inversion F as [|x' l' S F']; subst. cbn [length rows_of]. apply in_flat_map. exists l. split; [auto|]. apply in_map_iff. exists x. split; [reflexivity|].
  unfold small in S. assert (x = -1 \/ x = 0 \/ x = 1) as [->|[->| ->]] by lia; cbn; auto.
Qed.
Lemma not_zero_axis : forall x, In x rot_axes -> x <> V3 0 0 0.
Proof. assert (H : forallb (fun x => negb (v3_eqb x (V3 0 0 0))) rot_axes = true) by (vm_compute; reflexivity). rewrite forallb_forall in H. intros x Hx E. specialize (H x Hx). subst. discriminate H. Qed.
Lemma axes_found_proof r : finite_order r -> small_matrix r -> r <> I3 -> r <> inversion -> axis r <> V3 0 0 0.
Proof.
  intros Fr Sm N1 N2. pose proof (finite_det r Fr) as D. pose proof all_found as H. rewrite forallb_forall in H. specialize (H (l9 r) (rows_of_in (l9 r) Sm)). replace (as_m3 (l9 r)) with r in H by (destruct r; reflexivity).
  destruct (proper_part_finite r Fr) as (_ & Dp). destruct (isometry_correct_proof r Fr) as (k & (Ok & Pk & _) & Lk & _). pose proof (proper_eq r D) as E. unfold found_axis in H. unfold proper_part in *. rewrite E in H. rewrite Dp in H. cbn [Z.eqb Pos.eqb negb] in H.
  assert (NI : m3_eqb (scale3 (det3 r) r) I3 = false).
  { destruct (m3_eqb _ _) eqn:Q; auto. apply m3_eqb_eq in Q. exfalso. assert (B : forall d, d * d = 1 -> scale3 d (scale3 d r) = r). { intros d Hd. destruct r as [a b c u v w g h i]. unfold scale3. cbn [m00 m01 m02 m10 m11 m12 m20 m21 m22]. rewrite !Z.mul_assoc, Hd, !Z.mul_1_l. reflexivity. }
    assert (Dd : det3 r * det3 r = 1) by (destruct D as [D|D]; rewrite D; reflexivity). specialize (B _ Dd). rewrite Q in B. destruct D as [D|D]; rewrite D in B; [apply N1|apply N2]; symmetry; exact B. }
  rewrite NI in H. assert (Ex : existsb (fun k => m3_eqb (pow3 (scale3 (det3 r) r) k) I3) [2; 3; 4; 5; 6]%nat = true).
  { apply existsb_exists. exists k. split; [|now apply m3_eqb_eq]. assert (k <> 1)%nat. { intros ->. cbn [pow3] in Pk. rewrite mul3_I_r in Pk. apply m3_eqb_eq in Pk. congruence. } assert (k = 2 \/ k = 3 \/ k = 4 \/ k = 5 \/ k = 6)%nat as [->|[->|[->|[->| ->]]]] by lia; cbn; auto 6. }
  rewrite Ex in H. cbn [negb] in H. unfold axis. rewrite E, NI. destruct (find _ rot_axes) as [x|] eqn:F; [|discriminate H]. apply find_some in F. apply not_zero_axis, F.
Qed.

(** Two-fold axes of small matrices that keep a vector of the reciprocal lattice. *)
Definition two_fold_small (r : m3) : bool := (det3 r =? 1) && m3_eqb (pow3 r 2) I3 && negb (m3_eqb r I3).
Definition keeps_hkl (r : m3) (y : v3) : bool := v3_eqb (act3 (trans3 r) y) y.
Definition matching_check (r : m3) : bool :=
  if two_fold_small r then
    (if keeps_hkl r (V3 1 1 0) then v0 (axis r) =? v1 (axis r) else true) && (if keeps_hkl r (V3 0 1 1) then v1 (axis r) =? v2 (axis r) else true)
  else true.
Lemma all_matching : forallb (fun l => matching_check (as_m3 l)) (rows_of 9) = true.
Proof. vm_compute. reflexivity. Qed.
Lemma matching_small r : small_matrix r -> is_two_fold r ->
  (act3 (trans3 r) (V3 1 1 0) = V3 1 1 0 -> v0 (axis r) = v1 (axis r)) /\ (act3 (trans3 r) (V3 0 1 1) = V3 0 1 1 -> v1 (axis r) = v2 (axis r)).
Proof.
  intros Sm (D & P & N). pose proof all_matching as H. rewrite forallb_forall in H. specialize (H (l9 r) (rows_of_in (l9 r) Sm)). replace (as_m3 (l9 r)) with r in H by (destruct r; reflexivity).
  unfold matching_check, two_fold_small in H. rewrite D in H. cbn [Z.eqb Pos.eqb andb] in H. rewrite (proj2 (m3_eqb_eq _ _) P) in H. destruct (m3_eqb r I3) eqn:E; [apply m3_eqb_eq in E; contradiction|]. cbn [andb negb] in H. apply andb_true_iff in H. destruct H as [A B].
  split; intros K; [unfold keeps_hkl in A; rewrite (proj2 (v3_eqb_eq _ _) K) in A; now apply Z.eqb_eq|unfold keeps_hkl in B; rewrite (proj2 (v3_eqb_eq _ _) K) in B; now apply Z.eqb_eq].
Qed.

(** ** Vectors of the direct lattice *)
Local Open Scope Q_scope.
Lemma uvw_hkl b z y : independent b -> dot (from_uvw b z) (from_hkl b y) == inject_Z (v0 z) * qx y + inject_Z (v1 z) * qy y + inject_Z (v2 z) * qz y.
Proof.
  destruct b as [[u v] w]. intros I. cbn in I. unfold from_uvw, from_hkl. set (D := dot (cross u v) w) in *.
  assert (Dd : qdot u (qcross v w) == D) by (unfold D, qdot, qcross, dot, cross; cbn [qx qy qz]; ring).
  match goal with |- dot (qscale ?k ?x) ?y == _ => assert (E : dot (qscale k x) y == k * dot x y) by (unfold dot, qscale; cbn [qx qy qz]; ring) end. rewrite E, Dd.
  apply (Qmult_inj_l _ _ D I). rewrite Qmult_assoc, Qmult_inv_r, Qmult_1_l by exact I. unfold D, qadd, qscale, qcross, dot, cross. cbn [qx qy qz]. ring.
Qed.
Lemma from_to b x : independent b -> same_place (from_hkl b (to_hkl b x)) x.
Proof. intros I. apply (place_trans _ _ _ (from_comb b _)). now apply to_comb. Qed.
Lemma uvw_dot b z x : independent b -> dot (from_uvw b z) x == inject_Z (v0 z) * qx (to_hkl b x) + inject_Z (v1 z) * qy (to_hkl b x) + inject_Z (v2 z) * qz (to_hkl b x).
Proof. intros I. rewrite <- (uvw_hkl b z _ I). apply dot_place, place_sym, from_to, I. Qed.
Lemma uvw_basis b z i j k : independent b -> dot (from_uvw b z) (lattice_point b i j k) == inject_Z (v0 z * i + v1 z * j + v2 z * k).
Proof.
  intros I. assert (E : same_place (lattice_point b i j k) (from_hkl b (Q3 (inject_Z i) (inject_Z j) (inject_Z k)))).
  { destruct b as [[u v] w]. unfold lattice_point, from_hkl, qadd, qscale, same_place. cbn [qx qy qz]. repeat split; ring. }
  rewrite (dot_place _ _ _ E), (uvw_hkl b z _ I). cbn [qx qy qz]. rewrite !inject_Z_plus, !inject_Z_mult. ring.
Qed.
Lemma direct_proof b z : independent b -> direct b z (from_uvw b z).
Proof.
  intros I. pose proof (fun i j k => uvw_basis b z i j k I) as H. destruct b as [[u v] w]. unfold direct.
  assert (Eu : same_place (lattice_point (u, v, w) 1 0 0) u) by (unfold lattice_point, same_place; cbn [qx qy qz]; change (inject_Z 1) with 1; change (inject_Z 0) with 0; repeat split; ring).
  assert (Ev : same_place (lattice_point (u, v, w) 0 1 0) v) by (unfold lattice_point, same_place; cbn [qx qy qz]; change (inject_Z 1) with 1; change (inject_Z 0) with 0; repeat split; ring).
  assert (Ew : same_place (lattice_point (u, v, w) 0 0 1) w) by (unfold lattice_point, same_place; cbn [qx qy qz]; change (inject_Z 1) with 1; change (inject_Z 0) with 0; repeat split; ring).
  rewrite <- (dot_place _ _ _ Eu), <- (dot_place _ _ _ Ev), <- (dot_place _ _ _ Ew), !H. repeat split; apply inject_Z_injective; lia.
Qed.
Lemma uvw_nonzero b z : independent b -> z <> V3 0 0 0 -> ~ dot (from_uvw b z) (from_uvw b z) == 0.
Proof.
  intros I N E. assert (Z : forall x, dot (from_uvw b z) x == 0).
  { set (a := from_uvw b z) in *. assert (SQ : forall x : Q, x * x == 0 -> x == 0) by (intros x Hx; apply Qmult_integral in Hx; tauto). assert (Q0 : forall x : Q, 0 <= x * x) by (intros x; nra).
    unfold dot in E. pose proof (Q0 (qx a)). pose proof (Q0 (qy a)). pose proof (Q0 (qz a)). assert (X : qx a == 0) by (apply SQ; lra). assert (Y : qy a == 0) by (apply SQ; lra). assert (W : qz a == 0) by (apply SQ; lra).
    intros x. unfold dot. rewrite X, Y, W. ring. }
  apply N. pose proof (uvw_basis b z 1 0 0 I) as E0. pose proof (uvw_basis b z 0 1 0 I) as E1. pose proof (uvw_basis b z 0 0 1 I) as E2. rewrite Z in E0, E1, E2.
  assert (J : forall n, 0 == inject_Z n -> n = 0%Z) by (intros n Hn; change 0 with (inject_Z 0) in Hn; symmetry; exact (proj1 (inject_Z_injective 0 n) Hn)). apply J in E0, E1, E2. destruct z as [z0 z1 z2]. cbn [v0 v1 v2] in *. f_equal; lia.
Qed.

(** ** Operations as turns *)
Section Op.
Variables (b : basis) (m : m3) (z : v3).
Hypothesis I : independent b.
Hypothesis Fm : finite_order m.
Hypothesis Km : keeps_lengths b m.
Hypothesis St : stationary m z.
Let a := from_uvw b z.
Let T := rotate b m.
Let e := inject_Z (det3 m).
Lemma op_det : det3 m <> 0%Z. Proof. destruct (finite_det m Fm) as [D|D]; rewrite D; discriminate. Qed.
Let L := rotate_lin b m I op_det.
Lemma op_length x : dot (T x) (T x) == dot x x.
Proof. apply Km. apply (carries_rotate b m x _ I). apply place_refl. Qed.
Lemma op_dot x y : dot (T x) (T y) == dot x y.
Proof.
  pose proof (op_length (qadd x y)) as E. pose proof (op_length x) as Ex. pose proof (op_length y) as Ey.
  assert (A : forall c, dot c (T (qadd x y)) == dot c (qadd (T x) (T y))) by (intros c; rewrite dot_add; apply (l_add _ _ L)). pose proof (place_all _ _ A) as P.
  rewrite (dot_left _ _ _ P), (dot_place _ _ _ P) in E. assert (K : forall p q, dot (qadd p q) (qadd p q) == dot p p + 2 * dot p q + dot q q) by (intros p q; unfold dot, qadd; cbn [qx qy qz]; ring).
  rewrite !K, Ex, Ey in E. lra.
Qed.
Lemma op_triple x y w : triple (T x) (T y) (T w) == e * triple x y w.
Proof.
  pose proof (l_ahead _ _ L (Q3 0 0 0) x y w) as E. assert (Z : same_place (T (Q3 0 0 0)) (Q3 0 0 0)). { apply place_all. intros c. pose proof (l_add _ _ L c (Q3 0 0 0) (Q3 0 0 0)) as A. assert (K : same_place (qadd (Q3 0 0 0) (Q3 0 0 0)) (Q3 0 0 0)) by (repeat split; cbn; ring).
    rewrite (dot_place c _ _ (l_proper _ _ L _ _ K)) in A. fold T in A. assert (O : dot c (Q3 0 0 0) == 0) by (unfold dot; cbn; ring). rewrite O. lra. }
  fold T in E. rewrite (ahead_places (T (Q3 0 0 0)) (T x) (T y) (T w) (Q3 0 0 0) (T x) (T y) (T w) Z (place_refl _) (place_refl _) (place_refl _)) in E. unfold triple. assert (K : forall p q s, ahead (Q3 0 0 0, p, q) s == dot (cross p q) s) by (intros p q s; unfold ahead, dot, cross, minus; cbn [qx qy qz]; ring).
  rewrite !K in E. exact E.
Qed.
Lemma op_e : e * e == 1.
Proof. unfold e. destruct (finite_det m Fm) as [D|D]; rewrite D; reflexivity. Qed.
Lemma op_axis x : dot a (T x) == e * dot a x.
Proof.
  unfold a, T. rewrite (uvw_dot b z x I). unfold rotate. rewrite (uvw_hkl b z _ I). generalize (to_hkl b x). intros y. destruct St as (_ & E). unfold act3 in E. injection E as E0 E1 E2.
  assert (J0 := f_equal inject_Z E0). assert (J1 := f_equal inject_Z E1). assert (J2 := f_equal inject_Z E2). rewrite !inject_Z_plus, !inject_Z_mult in J0, J1, J2. unfold e.
  transitivity (qx y * (inject_Z (m00 m) * inject_Z (v0 z) + inject_Z (m01 m) * inject_Z (v1 z) + inject_Z (m02 m) * inject_Z (v2 z)) + qy y * (inject_Z (m10 m) * inject_Z (v0 z) + inject_Z (m11 m) * inject_Z (v1 z) + inject_Z (m12 m) * inject_Z (v2 z)) + qz y * (inject_Z (m20 m) * inject_Z (v0 z) + inject_Z (m21 m) * inject_Z (v1 z) + inject_Z (m22 m) * inject_Z (v2 z))).
  - unfold mat_q3, trans3, qadd, qscale. cbn [qx qy qz m00 m01 m02 m10 m11 m12 m20 m21 m22]. ring.
  - rewrite J0, J1, J2. ring.
Qed.
Lemma op_power n x : same_place (it T n x) (rotate b (pow3 m n) x).
Proof.
  induction n as [|n IH]; cbn [it pow3]; [apply place_sym, rotate_one, I|]. rewrite <- (pow3_S_r m n) || idtac. apply (place_trans _ _ _ (l_proper _ _ L _ _ IH)).
  change (mul3 m (pow3 m n)) with (pow3 m (S n)). rewrite pow3_S_r. apply (rotate_comp b (pow3 m n) m x I).
Qed.
Lemma op_period : exists M, (0 < M)%nat /\ forall x, same_place (it T M x) x.
Proof. destruct Fm as (M & P & E). exists M. split; [exact P|]. intros x. apply (place_trans _ _ _ (op_power M x)). rewrite E. apply rotate_one, I. Qed.
Lemma op_identity n : (forall x, In x (let '(u, v, w) := b in [u; v; w]) -> same_place (rotate b n x) x) -> n = I3.
Proof.
  intros H. assert (K : forall x, same_place (rotate b n x) x -> same_place (mat_q3 (trans3 n) (to_hkl b x)) (to_hkl b x)). { intros x E. apply (place_trans _ (to_hkl b (rotate b n x))); [apply place_sym, to_from, I|apply hkl_place, E]. }
  assert (U : forall x h k l, same_place x (combination b h k l) -> same_place (to_hkl b x) (Q3 h k l)). { intros x h k l E. apply (place_trans _ _ _ (hkl_place b _ _ E)). apply of_comb, I. }
  assert (C : forall x h k l, same_place x (combination b h k l) -> same_place (rotate b n x) x -> same_place (mat_q3 (trans3 n) (Q3 h k l)) (Q3 h k l)).
  { intros x h k l E F. apply (place_trans _ _ _ (mat_place _ _ _ (place_sym _ _ (U x h k l E)))). apply (place_trans _ _ _ (K x F)). apply U, E. }
  destruct b as [[u v] w]. pose proof (C u 1 0 0) as Cu. pose proof (C v 0 1 0) as Cv. pose proof (C w 0 0 1) as Cw.
  assert (Eu : same_place u (combination (u, v, w) 1 0 0)) by (unfold combination, same_place; cbn [qx qy qz]; repeat split; ring).
  assert (Ev : same_place v (combination (u, v, w) 0 1 0)) by (unfold combination, same_place; cbn [qx qy qz]; repeat split; ring).
  assert (Ew : same_place w (combination (u, v, w) 0 0 1)) by (unfold combination, same_place; cbn [qx qy qz]; repeat split; ring).
  specialize (Cu Eu (H u (or_introl eq_refl))). specialize (Cv Ev (H v (or_intror (or_introl eq_refl)))). specialize (Cw Ew (H w (or_intror (or_intror (or_introl eq_refl))))).
  unfold mat_q3, trans3, qadd, qscale, same_place in Cu, Cv, Cw. cbn [qx qy qz m00 m01 m02 m10 m11 m12 m20 m21 m22] in Cu, Cv, Cw. destruct Cu as (A0 & A1 & A2), Cv as (B0 & B1 & B2), Cw as (C0 & C1 & C2).
  assert (J : forall k l : Z, inject_Z k == inject_Z l -> k = l) by (intros k l E; now apply inject_Z_injective).
  assert (J1 : forall q k, q == inject_Z k -> q == 1 -> k = 1%Z) by (intros q k E F; apply J; change (inject_Z 1) with 1; now rewrite <- E). assert (J0 : forall q k, q == inject_Z k -> q == 0 -> k = 0%Z) by (intros q k E F; apply J; change (inject_Z 0) with 0; now rewrite <- E).
  destruct n as [n00 n01 n02 n10 n11 n12 n20 n21 n22]. cbn [m00 m01 m02 m10 m11 m12 m20 m21 m22] in *. unfold I3.
  f_equal; first [eapply J1; [|exact A0]; ring | eapply J1; [|exact B1]; ring | eapply J1; [|exact C2]; ring | eapply J0; [|exact A1]; ring | eapply J0; [|exact A2]; ring | eapply J0; [|exact B0]; ring | eapply J0; [|exact B2]; ring | eapply J0; [|exact C0]; ring | eapply J0; [|exact C1]; ring].
Qed.
Lemma place_dec x y : {same_place x y} + {~ same_place x y}.
Proof. destruct (Qeq_dec (qx x) (qx y)), (Qeq_dec (qy x) (qy y)), (Qeq_dec (qz x) (qz y)); try (right; intros (A & B & C); contradiction). left. repeat split; assumption. Qed.
Lemma op_moves n : n <> I3 -> exists x, ~ same_place (rotate b n x) x.
Proof.
  intros N. destruct (Forall_dec (fun x => same_place (rotate b n x) x) (fun x => place_dec _ _) (let '(u, v, w) := b in [u; v; w])) as [F|F].
  - exfalso. apply N, op_identity. now apply Forall_forall.
  - clear - F. destruct b as [[u v] w]. destruct (place_dec (rotate (u, v, w) n u) u) as [U|U]; [|eauto]. destruct (place_dec (rotate (u, v, w) n v) v) as [V|V]; [|eauto]. destruct (place_dec (rotate (u, v, w) n w) w) as [W|W]; [|eauto].
    exfalso. apply F. constructor; [exact U|constructor; [exact V|constructor; [exact W|constructor]]].
Qed.
(** Each point is turned between two planes that the operation takes to each other. *)
Lemma op_between p0 p1 x : pow3 m 2 <> I3 -> same_place p1 (T p0) ->
  (exists k, 0 <= dot (cross a p0) (it T k x) /\ 0 <= dot (cross p1 a) (it T k x)) /\
  (exists k, 0 <= dot (cross a p1) (it T k x) /\ 0 <= dot (cross p0 a) (it T k x)).
Proof.
  intros N E. destruct op_period as (M & P & TM).
  assert (F : fixed_line T a).
  { apply (square_line T e a M (l_proper _ _ L) (l_add _ _ L) op_dot op_triple op_e op_axis P TM). destruct (op_moves _ N) as (y & Hy). exists y. intros S. apply Hy. apply (place_trans _ (T (T y))); [apply place_sym, (op_power 2 y)|exact S]. }
  split; [apply (between T e a M (l_proper _ _ L) (l_add _ _ L) op_dot op_triple op_e op_axis P TM p0 p1 x F E)|apply (between' T e a M (l_proper _ _ L) (l_add _ _ L) op_dot op_triple op_e op_axis P TM p0 p1 x F E)].
Qed.
(** A two-fold rotation takes each point to the other side of a plane through the axis. *)
Lemma op_half n x : det3 m = 1%Z -> pow3 m 2 = I3 -> m <> I3 -> dot n a == 0 -> dot n x + dot n (T x) == 0.
Proof.
  intros D P2 N H. assert (TM : forall y, same_place (it T 2 y) y) by (intros y; apply (place_trans _ _ _ (op_power 2 y)); rewrite P2; apply rotate_one, I).
  assert (P : (0 < 2)%nat) by lia. assert (E1 : e == 1) by (unfold e; rewrite D; reflexivity).
  assert (F : fixed_line T a) by (apply (proper_line T e a 2 (l_proper _ _ L) (l_add _ _ L) op_dot op_triple op_e op_axis P TM E1), (op_moves m N)).
  assert (FS : same_place (T (orbit T 2 x)) (orbit T 2 x)) by (apply (orbit_fixed T 2 (l_proper _ _ L) (l_add _ _ L) TM)).
  pose proof (on_axis T e a 2 (l_proper _ _ L) (l_add _ _ L) op_dot op_triple op_e op_axis P TM (orbit T 2 x) n E1 F (uvw_nonzero b z I (proj1 St)) FS H) as Z. rewrite dot_orbit in Z. cbn [tot it] in Z. lra.
Qed.
End Op.
