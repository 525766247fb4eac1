(** The cutting normals: covering of space by turns. *)
From Coq Require Import QArith Lqa Qfield.
From Verif Require Import Base Array2Model MatSpec IsometrySpec IsometryModel MatProofs IsometryProofs QPoint CutModel CutSpec CutGeomProofs VolumeSpec VolumeProofs MoveProofs SameSetProofs AdditiveProofs.
From Verif Require Import ZoneModel ZoneSpec ApplyModel ApplySpec LinearProofs ApplyProofs CheckIrProofs WedgeModel CuttingModel CuttingSpec CuttingCoverProofs CuttingRunProofs CuttingStagesProofs CuttingAxisProofs.
Local Open Scope Q_scope.

Lemma qeqb_place x y : qeqb x y = true -> same_place x y.
Proof. unfold qeqb. rewrite !andb_true_iff, !Qeq_bool_iff. intros ((A & B) & C). repeat split; assumption. Qed.
Lemma qzero_place x : qzero x = true -> same_place x (Q3 0 0 0).
Proof. apply qeqb_place. Qed.

Section One.
Variables (b : basis) (r : m3).
Hypothesis I : independent b.
Hypothesis Fr : finite_order r.
Hypothesis Kr : keeps_lengths b r.
Hypothesis Ax : axis r <> V3 0 0 0.
Let a := axis_of b r.
Lemma axis_good : stationary r (axis r).
Proof. apply axis_stationary_proof; [apply finite_det, Fr|exact Ax]. Qed.

(** ** Repeated turns *)
Lemma turns_place x y z : turns_to b r x y -> same_place y z -> turns_to b r x z.
Proof.
  intros H E. destruct H as [y E'|y z' H C]; [apply turns_none; exact (place_trans _ _ _ E' E)|]. apply (turns_more b r x y); [exact H|]. apply (carries_rotate b r y z I). apply (carries_rotate b r y z' I) in C. apply (place_trans _ z'); [now apply place_sym|exact C].
Qed.
Lemma turns_one x y : turns_to b r x y -> turns_to b r x (rotate b r y).
Proof. intros H. apply (turns_more b r x y); [exact H|]. apply (carries_rotate b r y _ I), place_refl. Qed.
Lemma turns_trans x y z : turns_to b r x y -> turns_to b r y z -> turns_to b r x z.
Proof.
  intros H G. induction G as [z E|y' z G IH C]; [now apply (turns_place x y)|]. apply (turns_more b r x y'); assumption.
Qed.
Lemma turns_turned n x : turns_to b r x (turned b r n x).
Proof. induction n as [|n IH]; cbn [turned]; [apply turns_none, place_refl|]. now apply turns_one. Qed.
Lemma turned_it n x : turned b r n x = it (rotate b r) n x.
Proof. induction n as [|n IH]; cbn [turned it]; [reflexivity|now rewrite IH]. Qed.
Lemma turned_power n x : same_place (turned b r n x) (rotate b (pow3 r n) x).
Proof. rewrite turned_it. apply (op_power b r I Fr). Qed.
Lemma turns_it (m : m3) : (forall x, turns_to b r x (rotate b m x)) -> forall k x, turns_to b r x (it (rotate b m) k x).
Proof. intros H k x. induction k as [|k IH]; cbn [it]; [apply turns_none, place_refl|]. apply (turns_trans _ _ _ IH), H. Qed.

(** ** Two normals *)
Lemma covers_between (m : m3) pt0 pt1 : (forall x, turns_to b r x (rotate b m x)) -> finite_order m -> keeps_lengths b m -> stationary m (axis r) -> pow3 m 2 <> I3 ->
  same_place pt1 (rotate b m pt0) ->
  covers b r [qcross a pt0; qcross pt1 a] /\ covers b r [qcross a pt1; qcross pt0 a].
Proof.
  intros H Fm Km Sm N E. split; intros x; destruct (op_between b m (axis r) I Fm Km Sm pt0 pt1 x N E) as ((k & A & B) & (l & C & D)).
  - exists (it (rotate b m) k x). split; [now apply turns_it|]. intros n [<-|[<-|[]]]; assumption.
  - exists (it (rotate b m) l x). split; [now apply turns_it|]. intros n [<-|[<-|[]]]; assumption.
Qed.
Lemma minus_eq : scale3 (-1) r = mul3 r inversion.
Proof. destruct r as [x0 x1 x2 y0 y1 y2 z0 z1 z2]. unfold scale3, mul3, inversion. cbn [m00 m01 m02 m10 m11 m12 m20 m21 m22]. f_equal; ring. Qed.
Lemma rotate_minus x : same_place (rotate b (scale3 (-1) r) x) (opposite (rotate b r x)).
Proof. rewrite minus_eq. apply (place_trans _ (rotate b inversion (rotate b r x))); [apply place_sym, rotate_comp, I|apply rotate_inversion, I]. Qed.
Lemma minus_det : det3 (scale3 (-1) r) = (- det3 r)%Z.
Proof. destruct r as [x0 x1 x2 y0 y1 y2 z0 z1 z2]. unfold scale3, det3, dot3, cross3, row0, row1, row2. cbn [v0 v1 v2 m00 m01 m02 m10 m11 m12 m20 m21 m22]. ring. Qed.
Lemma minus_pow2 : pow3 (scale3 (-1) r) 2 = pow3 r 2.
Proof. rewrite pow3_scale. change ((-1) ^ Z.of_nat 2)%Z with 1%Z. apply scale3_1. Qed.
Lemma minus_finite : finite_order (scale3 (-1) r).
Proof.
  destruct Fr as (n & P & E). exists (2 * n)%nat. split; [lia|]. rewrite pow3_mul, minus_pow2, <- pow3_mul, Nat.mul_comm, pow3_mul, E, pow3_I. reflexivity.
Qed.
Lemma minus_keeps : keeps_lengths b (scale3 (-1) r).
Proof.
  intros x y C. apply (carries_rotate b _ x y I) in C. pose proof (place_trans _ _ _ C (rotate_minus x)) as E. rewrite (dot_left _ _ _ E), (dot_place _ _ _ E).
  rewrite <- (Kr x (rotate b r x)) by (apply (carries_rotate b r x _ I), place_refl). unfold dot, opposite. cbn [qx qy qz]. ring.
Qed.
Lemma minus_stationary : stationary (scale3 (-1) r) (axis r).
Proof.
  destruct axis_good as (N & E). split; [exact N|]. rewrite minus_det. unfold act3, scale3 in *. cbn [m00 m01 m02 m10 m11 m12 m20 m21 m22] in *. injection E as E0 E1 E2. f_equal; lia.
Qed.
Lemma order_at : exists k, has_order (proper_part r) k /\ order_of r = k /\ isometry_value (l9 r) = (det3 r * Z.of_nat k)%Z.
Proof. destruct (isometry_correct_proof r Fr) as (k & H & _ & E & V). exists k. split; [exact H|]. split; [|exact V]. unfold order_of. rewrite E. apply Nat2Z.id. Qed.
Lemma proper_square : pow3 (proper_part r) 2 = pow3 r 2.
Proof. unfold proper_part. rewrite pow3_scale. replace (det3 r ^ Z.of_nat 2)%Z with 1%Z by (destruct (finite_det r Fr) as [D|D]; rewrite D; reflexivity). apply scale3_1. Qed.
Lemma big_square : (2 < order_of r)%nat -> pow3 r 2 <> I3.
Proof. intros H. destruct order_at as (k & (_ & _ & N) & E & _). rewrite <- proper_square. apply N. lia. Qed.
(** The point after the last is the first one, or its opposite. *)
Lemma next_turn j p : (2 < order_of r)%nat -> (j < order_of r)%nat ->
  same_place (turned b r (S j mod order_of r) p) (rotate b r (turned b r j p)) \/
  (pow3 r (order_of r) = scale3 (-1) I3 /\ same_place (turned b r (S j mod order_of r) p) (rotate b (scale3 (-1) r) (turned b r j p))).
Proof.
  intros O Hj. destruct order_at as (k & (Pk & Ek & _) & E & _). rewrite E in *. destruct (Nat.eq_dec (S j) k) as [Ej|Nj]; [|left; rewrite Nat.mod_small by lia; apply place_refl].
  rewrite Ej, Nat.mod_same by lia. change (turned b r 0 p) with p. unfold proper_part in Ek. rewrite pow3_scale in Ek.
  assert (C : (det3 r ^ Z.of_nat k = 1 \/ det3 r ^ Z.of_nat k = -1)%Z). { destruct (finite_det r Fr) as [D|D]; rewrite D; [left; apply Z.pow_1_l; lia|]. destruct (Nat.Even_or_Odd k) as [(h & ->)|(h & ->)]; [left|right].
    - rewrite Nat2Z.inj_mul, Z.pow_mul_r by lia. change ((-1) ^ Z.of_nat 2)%Z with 1%Z. apply Z.pow_1_l. lia.
    - rewrite Nat2Z.inj_add, Nat2Z.inj_mul, Z.pow_add_r, Z.pow_mul_r by lia. change ((-1) ^ Z.of_nat 2)%Z with 1%Z. rewrite Z.pow_1_l by lia. reflexivity. }
  assert (T : same_place (rotate b r (turned b r j p)) (rotate b (pow3 r k) p)). { change (rotate b r (turned b r j p)) with (turned b r (S j) p). rewrite Ej. apply turned_power. }
  destruct C as [C|C]; rewrite C in Ek.
  - left. rewrite scale3_1 in Ek. rewrite Ek in T. apply place_sym. apply (place_trans _ _ _ T). apply rotate_one, I.
  - right. assert (Ek' : pow3 r k = scale3 (-1) I3) by (rewrite <- Ek; destruct (pow3 r k) as [x0 x1 x2 y0 y1 y2 z0 z1 z2]; unfold scale3; cbn [m00 m01 m02 m10 m11 m12 m20 m21 m22]; f_equal; ring). split; [exact Ek'|].
    rewrite Ek' in T. assert (Inv : scale3 (-1) I3 = inversion) by reflexivity. rewrite Inv in T. apply place_sym. apply (place_trans _ _ _ (rotate_minus _)).
    pose proof (place_trans _ _ _ T (rotate_inversion b p I)) as (A & B & Cz). unfold opposite, same_place in *. cbn [qx qy qz] in *. rewrite A, B, Cz. repeat split; ring.
Qed.
Lemma minus_turns : pow3 r (order_of r) = scale3 (-1) I3 -> forall x, turns_to b r x (rotate b (scale3 (-1) r) x).
Proof.
  intros E x. apply (turns_place x (turned b r (S (order_of r)) x)); [apply turns_turned|]. apply (place_trans _ _ _ (turned_power _ x)). change (pow3 r (S (order_of r))) with (mul3 r (pow3 r (order_of r))). rewrite E. change (scale3 (-1) I3) with inversion. rewrite <- minus_eq. apply place_refl.
Qed.
Lemma covers_pair p pt0 pt1 j : (2 < order_of r)%nat -> (j < order_of r)%nat -> qeqb pt0 (turned b r j p) = true -> qeqb pt1 (turned b r (S j mod order_of r) p) = true ->
  covers b r [qcross a pt0; qcross pt1 a] /\ covers b r [qcross a pt1; qcross pt0 a].
Proof.
  intros O Hj E0 E1. apply qeqb_place in E0, E1. destruct (next_turn j p O Hj) as [E|(W & E)].
  - apply (covers_between r pt0 pt1); auto; [intros x; apply turns_one, turns_none, place_refl|exact axis_good|now apply big_square|]. apply (place_trans _ _ _ E1), (place_trans _ _ _ E), rotate_place, place_sym, E0.
  - apply (covers_between (scale3 (-1) r) pt0 pt1); [now apply minus_turns|exact minus_finite|exact minus_keeps|exact minus_stationary|rewrite minus_pow2; now apply big_square|]. apply (place_trans _ _ _ E1), (place_trans _ _ _ E), rotate_place, place_sym, E0.
Qed.

(** ** One normal *)
Lemma order_two : order_of r = 2%nat -> (is_two_fold r /\ isometry_value (l9 r) = 2%Z) \/ (is_mirror r /\ isometry_value (l9 r) = (-2)%Z).
Proof.
  intros O. destruct order_at as (k & (_ & Pk & Nk) & E & V). rewrite O in E. subst k. rewrite proper_square in Pk. assert (N1 := Nk 1%nat ltac:(lia)). cbn [pow3] in N1. destruct (finite_det r Fr) as [D|D]; rewrite D in V; [left|right]; (split; [|exact V]).
  - split; [exact D|]. split; [exact Pk|]. intros ->. apply N1. reflexivity.
  - split; [exact D|]. split; [exact Pk|]. revert V. unfold isometry_value. rewrite isometry_type_eq, D. cbn [Z.eqb Pos.eqb].
    destruct (Z.eqb_spec (tr3 r) (-2)), (Z.eqb_spec (tr3 r) (-1)), (Z.eqb_spec (tr3 r) 0), (Z.eqb_spec (tr3 r) 1), (Z.eqb_spec (tr3 r) (-3)); cbn; intros V; first [assumption|discriminate V].
Qed.
Lemma covers_half n : is_two_fold r -> dot n a == 0 -> covers b r [n].
Proof.
  intros (D & P & N) H x. pose proof (op_half b r (axis r) I Fr Kr axis_good n x D P N H) as Z. destruct (Qlt_le_dec (dot n x) 0) as [L|G].
  - exists (rotate b r x). split; [apply turns_one, turns_none, place_refl|]. intros n' [<-|[]]. lra.
  - exists x. split; [apply turns_none, place_refl|]. intros n' [<-|[]]. exact G.
Qed.
Lemma covers_mirror n : is_mirror r -> (forall x, dot n (rotate b r x) == - dot n x) -> covers b r [n].
Proof.
  intros _ H x. destruct (Qlt_le_dec (dot n x) 0) as [L|G].
  - exists (rotate b r x). split; [apply turns_one, turns_none, place_refl|]. intros n' [<-|[]]. rewrite H. lra.
  - exists x. split; [apply turns_none, place_refl|]. intros n' [<-|[]]. exact G.
Qed.
Lemma parallel_dot x n : same_place (cross x a) (Q3 0 0 0) -> ~ dot x x == 0 -> dot n x == 0 -> dot n a == 0.
Proof.
  intros P N H. assert (E : dot x x * dot n a == dot n x * dot x a + dot (cross x n) (cross x a)) by (unfold dot, cross; cbn [qx qy qz]; ring). rewrite H, (dot_place _ _ _ P) in E.
  assert (E' : dot x x * dot n a == 0) by (rewrite E; unfold dot; cbn [qx qy qz]; ring). apply Qmult_integral in E'. destruct E'; [contradiction|assumption].
Qed.
Lemma recip_lattice z : same_place (recip b z) (lattice_point b (v0 z) (v1 z) (v2 z)).
Proof. destruct b as [[u v] w]. unfold recip, tau, lattice_point, qadd, qscale, same_place. cbn [qx qy qz]. repeat split; ring. Qed.
Lemma uvw_recip x y : dot (from_uvw b x) (recip b y) == inject_Z (v0 x * v0 y + v1 x * v1 y + v2 x * v2 y).
Proof. rewrite (dot_place _ _ _ (recip_lattice y)). apply uvw_basis, I. Qed.
Lemma recip_nonzero y : y <> V3 0 0 0 -> ~ dot (recip b y) (recip b y) == 0.
Proof.
  intros N E. apply N. assert (Z : forall x, dot x (recip b y) == 0).
  { set (q := recip b y) in *. assert (SQ : forall x : Q, x * x == 0 -> x == 0) by (intros x Hx; apply Qmult_integral in Hx; tauto). assert (Q0 : forall x : Q, 0 <= x * x) by (intros x; nra).
    unfold dot in E. pose proof (Q0 (qx q)). pose proof (Q0 (qy q)). pose proof (Q0 (qz q)). assert (X : qx q == 0) by (apply SQ; lra). assert (Y : qy q == 0) by (apply SQ; lra). assert (W : qz q == 0) by (apply SQ; lra).
    intros x. unfold dot. rewrite X, Y, W. ring. }
  pose proof (uvw_recip (V3 1 0 0) y) as E0. pose proof (uvw_recip (V3 0 1 0) y) as E1. pose proof (uvw_recip (V3 0 0 1) y) as E2. rewrite Z in E0, E1, E2. cbn [v0 v1 v2] in *.
  assert (J : forall n, 0 == inject_Z n -> n = 0%Z) by (intros n Hn; symmetry; exact (proj1 (inject_Z_injective 0 n) Hn)). apply J in E0, E1, E2. destruct y as [y0 y1 y2]. cbn [v0 v1 v2] in *. f_equal; lia.
Qed.
Lemma direct_same z d : direct b z d -> same_place d (from_uvw b z).
Proof.
  intros D. pose proof (direct_proof b z I) as E. destruct b as [[u v] w]. cbn in I. destruct D as (D0 & D1 & D2), E as (E0 & E1 & E2).
  apply (independent_zero u v w); [exact I| | |]; rewrite (dot_comm _ d), (dot_comm _ (from_uvw _ z)); [rewrite D0, E0|rewrite D1, E1|rewrite D2, E2]; reflexivity.
Qed.
Lemma parallel_gen x y n : same_place (cross x y) (Q3 0 0 0) -> ~ dot x x == 0 -> dot n x == 0 -> dot n y == 0.
Proof.
  intros P N H. assert (E : dot x x * dot n y == dot n x * dot x y + dot (cross x n) (cross x y)) by (unfold dot, cross; cbn [qx qy qz]; ring). rewrite H, (dot_place _ _ _ P) in E.
  assert (E' : dot x x * dot n y == 0) by (rewrite E; unfold dot; cbn [qx qy qz]; ring). apply Qmult_integral in E'. destruct E'; [contradiction|assumption].
Qed.
Lemma rotate_scale k x : same_place (rotate b r (qscale k x)) (qscale k (rotate b r x)).
Proof.
  destruct b as [[u v] w]. unfold rotate, from_hkl, mat_q3, to_hkl, qadd, qscale, qdot, same_place, Qdiv. cbn [qx qy qz]. repeat split; ring.
Qed.
(** An axis along a vector of the reciprocal lattice. *)
Lemma axis_hkl y : is_two_fold r -> same_place (cross (recip b y) a) (Q3 0 0 0) -> act3 (trans3 r) y = y.
Proof.
  intros (D & P & N) C. assert (Na : ~ dot a a == 0) by (apply uvw_nonzero; [exact I|exact Ax]).
  assert (Ra : same_place (rotate b r a) a).
  { destruct (op_period b r I Fr) as (M & PM & TM). pose proof (axis_turned (rotate b r) (inject_Z (det3 r)) a M (l_proper _ _ (rotate_lin b r I (op_det r Fr))) (l_add _ _ (rotate_lin b r I (op_det r Fr))) (op_dot b r I Fr Kr) (op_triple b r I Fr) (op_e r Fr) (op_axis b r (axis r) I axis_good) PM TM) as E.
    apply (place_trans _ _ _ E). rewrite D. unfold qscale, same_place. cbn [qx qy qz]. change (inject_Z 1) with 1. repeat split; ring. }
  assert (Q1 : same_place (qscale (dot a a) (recip b y)) (qscale (dot a (recip b y)) a)).
  { destruct C as (C0 & C1 & C2). unfold cross in C0, C1, C2. cbn [qx qy qz] in C0, C1, C2. set (q := recip b y) in *. unfold same_place, qscale, dot. cbn [qx qy qz].
    repeat split.
    - transitivity ((qx a * qx q + qy a * qy q + qz a * qz q) * qx a + qy a * (qx q * qy a - qy q * qx a) - qz a * (qz q * qx a - qx q * qz a)); [ring|rewrite C1, C2; ring].
    - transitivity ((qx a * qx q + qy a * qy q + qz a * qz q) * qy a + qz a * (qy q * qz a - qz q * qy a) - qx a * (qx q * qy a - qy q * qx a)); [ring|rewrite C0, C2; ring].
    - transitivity ((qx a * qx q + qy a * qy q + qz a * qz q) * qz a + qx a * (qz q * qx a - qx q * qz a) - qy a * (qy q * qz a - qz q * qy a)); [ring|rewrite C0, C1; ring]. }
  assert (Q2 : same_place (qscale (dot a a) (rotate b r (recip b y))) (qscale (dot a a) (recip b y))).
  { apply (place_trans _ _ _ (place_sym _ _ (rotate_scale _ _))). apply (place_trans _ _ _ (rotate_place b r _ _ Q1)). apply (place_trans _ _ _ (rotate_scale _ _)).
    apply (place_trans _ (qscale (dot a (recip b y)) a)); [|apply place_sym, Q1]. destruct Ra as (A0 & A1 & A2). unfold qscale, same_place. cbn [qx qy qz]. rewrite A0, A1, A2. repeat split; reflexivity. }
  assert (Q3' : same_place (rotate b r (recip b y)) (recip b y)).
  { destruct Q2 as (A0 & A1 & A2). unfold qscale in A0, A1, A2. cbn [qx qy qz] in A0, A1, A2. repeat split; eapply Qmult_inj_l; eauto. }
  assert (R1 : same_place (rotate b r (recip b y)) (recip b (act3 (trans3 r) y))).
  { apply place_sym, (carries_rotate b r _ _ I). exists (inject_Z (v0 y)), (inject_Z (v1 y)), (inject_Z (v2 y)). clear. destruct b as [[u v] w]. unfold recip, tau, combination, qadd, qscale, act3, trans3, same_place. cbn [qx qy qz v0 v1 v2 m00 m01 m02 m10 m11 m12 m20 m21 m22]. rewrite !inject_Z_plus, !inject_Z_mult. repeat split; ring. }
  assert (U : forall z, dot (from_uvw b z) (recip b (act3 (trans3 r) y)) == dot (from_uvw b z) (recip b y)) by (intros z; apply dot_place; exact (place_trans _ _ _ (place_sym _ _ R1) Q3')).
  assert (J : forall k l : Z, inject_Z k == inject_Z l -> k = l) by (intros k l E; exact (proj1 (inject_Z_injective k l) E)).
  pose proof (U (V3 1 0 0)) as U0. pose proof (U (V3 0 1 0)) as U1. pose proof (U (V3 0 0 1)) as U2. rewrite !uvw_recip in U0, U1, U2. apply J in U0, U1, U2. destruct (act3 (trans3 r) y) as [t0 t1 t2], y as [y0 y1 y2]. cbn [v0 v1 v2] in *. f_equal; lia.
Qed.
Lemma count_in l : count l = 1%nat -> exists k, (k < length l)%nat /\ nth k l false = true.
Proof.
  induction l as [|x l IH]; unfold count in *; cbn [filter length]; [discriminate|]. destruct x; [intros _; exists 0%nat; split; [cbn; lia|reflexivity]|]. intros H. destruct (IH H) as (k & Hk & E). exists (S k). split; [cbn; lia|exact E].
Qed.
Lemma normal_along D W : count (along (eis b) (qcross D W)) = 1%nat -> exists z, In z eiv /\ same_place (cross (recip b z) (qcross D W)) (Q3 0 0 0).
Proof.
  intros C. destruct (count_in _ C) as (k & Hk & E). unfold along in Hk, E. rewrite map_length in Hk. rewrite (nth_indep _ false (qzero (qcross (recip b (V3 0 0 0)) (qcross D W)))) in E by (rewrite map_length; exact Hk).
  rewrite (map_nth (fun e => qzero (qcross e (qcross D W)))) in E. unfold eis in E. rewrite (map_nth (recip b)) in E. exists (nth k eiv (V3 0 0 0)). split; [apply nth_In; unfold eis in Hk; rewrite map_length in Hk; exact Hk|]. exact (qzero_place _ E).
Qed.
(** A normal of the table that is along only one vector of the list. *)
Lemma crossed_normal d w t : dot (from_uvw b d) (recip b w) == 0 -> d <> V3 0 0 0 -> w <> V3 0 0 0 ->
  (forall z, In z eiv -> (v0 d * v0 z + v1 d * v1 z + v2 d * v2 z = 0)%Z -> z = w \/ dot (from_uvw b t) (recip b z) == 0) ->
  count (along (eis b) (qcross (from_uvw b d) (recip b w))) = 1%nat -> dot (qcross (from_uvw b d) (recip b w)) (from_uvw b t) == 0.
Proof.
  intros O Nd Nw H C. destruct (normal_along _ _ C) as (z & Hz & P). set (D := from_uvw b d) in *. set (W := recip b w) in *. set (n := qcross D W) in *.
  assert (Nn : ~ dot n n == 0). { intros E. assert (K : dot n n == dot D D * dot W W - dot D W * dot D W) by (unfold n, dot, qcross; cbn [qx qy qz]; ring). rewrite E, O in K. assert (K' : dot D D * dot W W == 0) by lra. apply Qmult_integral in K'. destruct K' as [K'|K']; [exact (uvw_nonzero b d I Nd K')|exact (recip_nonzero w Nw K')]. }
  assert (P' : same_place (cross n (recip b z)) (Q3 0 0 0)). { destruct P as (A & B & Cc). unfold cross, same_place in *. cbn [qx qy qz] in *. repeat split; lra. }
  assert (Ez : z <> V3 0 0 0) by (intros ->; cbn in Hz; intuition discriminate).
  assert (Dz : dot D (recip b z) == 0) by (apply (parallel_gen n); [exact P'|exact Nn|unfold n, dot, qcross; cbn [qx qy qz]; ring]). unfold D in Dz. rewrite uvw_recip in Dz. change 0 with (inject_Z 0) in Dz. apply (proj1 (inject_Z_injective _ _)) in Dz.
  assert (Wz : dot W (recip b z) == 0) by (apply (parallel_gen n); [exact P'|exact Nn|unfold n, dot, qcross; cbn [qx qy qz]; ring]).
  destruct (H z Hz Dz) as [->|T]; [exfalso; exact (recip_nonzero w Nw Wz)|]. rewrite dot_comm. apply (parallel_gen (recip b z)); [exact P|now apply recip_nonzero|exact T].
Qed.
(** The normals of the table are at right angles to the axis. *)
Lemma table_normal k e1 e2 : small_matrix r -> matching_axis b r -> is_two_fold r -> (k < 9)%nat -> nth k e1_e2 (0, 0)%nat = (e1, e2) -> qzero (qcross (nth k (eis b) (Q3 0 0 0)) a) = true ->
  count (along (eis b) (qcross (nth e1 (reis b) (Q3 0 0 0)) (nth e2 (eis b) (Q3 0 0 0)))) = 1%nat ->
  dot (qcross (nth e1 (reis b) (Q3 0 0 0)) (nth e2 (eis b) (Q3 0 0 0))) a == 0.
Proof.
  intros Sm Ma Tw Hk E P Ct. apply qzero_place in P. change (same_place (cross (nth k (eis b) (Q3 0 0 0)) a) (Q3 0 0 0)) in P.
  assert (Along : forall z x, z <> V3 0 0 0 -> nth k (eis b) (Q3 0 0 0) = recip b z -> dot (qcross x (recip b z)) a == 0).
  { intros z x N Ez. rewrite Ez in P. apply (parallel_dot (recip b z)); [exact P|now apply recip_nonzero|]. change (dot (cross x (recip b z)) (recip b z) == 0). unfold dot, cross. cbn [qx qy qz]. ring. }
  assert (Match : forall y, nth k (eis b) (Q3 0 0 0) = recip b (V3 1 0 (-1)) -> dot (qcross (from_uvw b (V3 1 0 (-1))) y) a == 0).
  { intros y Ez. assert (Pl : parallel (from_uvw b (V3 1 0 (-1))) a).
    { apply (Ma Tw (axis r) a (from_uvw b (V3 1 0 (-1))) axis_good (direct_proof b _ I)); [|apply direct_proof, I]. rewrite Ez in P. destruct (recip_lattice (V3 1 0 (-1))) as (A & B & C). cbn [v0 v1 v2] in A, B, C. destruct P as (P0 & P1 & P2). unfold parallel, same_place, cross in *. cbn [qx qy qz] in *. rewrite <- A, <- B, <- C. auto. }
    apply (parallel_dot (from_uvw b (V3 1 0 (-1)))); [exact Pl|apply uvw_nonzero; [exact I|discriminate]|].
    change (dot (cross (from_uvw b (V3 1 0 (-1))) y) (from_uvw b (V3 1 0 (-1))) == 0). unfold dot, cross. cbn [qx qy qz]. ring. }
  destruct (matching_small r Sm Tw) as [M1 M2].
  assert (Case3 : nth k (eis b) (Q3 0 0 0) = recip b (V3 1 1 0) -> count (along (eis b) (qcross (from_uvw b (V3 1 1 0)) (recip b (V3 0 0 1)))) = 1%nat -> dot (qcross (from_uvw b (V3 1 1 0)) (recip b (V3 0 0 1))) a == 0).
  { intros Ez C. rewrite Ez in P. specialize (M1 (axis_hkl _ Tw P)). apply crossed_normal; [rewrite uvw_recip; reflexivity|discriminate|discriminate| |exact C].
    intros z Hz H0. assert (F : forall e, inject_Z e == 0 <-> e = 0%Z) by (intros e; exact (inject_Z_injective e 0)). cbn in Hz. rewrite uvw_recip, F. repeat (destruct Hz as [<-|Hz]; [cbn [v0 v1 v2] in *; first [lia|now left|right; lia]|]). contradiction. }
  assert (Case6 : nth k (eis b) (Q3 0 0 0) = recip b (V3 0 1 1) -> count (along (eis b) (qcross (from_uvw b (V3 0 1 1)) (recip b (V3 1 0 0)))) = 1%nat -> dot (qcross (from_uvw b (V3 0 1 1)) (recip b (V3 1 0 0))) a == 0).
  { intros Ez C. rewrite Ez in P. specialize (M2 (axis_hkl _ Tw P)). apply crossed_normal; [rewrite uvw_recip; reflexivity|discriminate|discriminate| |exact C].
    intros z Hz H0. assert (F : forall e, inject_Z e == 0 <-> e = 0%Z) by (intros e; exact (inject_Z_injective e 0)). cbn in Hz. rewrite uvw_recip, F. repeat (destruct Hz as [<-|Hz]; [cbn [v0 v1 v2] in *; first [lia|now left|right; lia]|]). contradiction. }
  destruct k as [|k]; [cbn in E; injection E as <- <-; refine (Along (V3 1 0 0) _ _ _); [discriminate|reflexivity]|].
  destruct k as [|k]; [cbn in E; injection E as <- <-; refine (Along (V3 0 1 0) _ _ _); [discriminate|reflexivity]|].
  destruct k as [|k]; [cbn in E; injection E as <- <-; refine (Along (V3 0 0 1) _ _ _); [discriminate|reflexivity]|].
  destruct k as [|k]; [cbn in E; injection E as <- <-; exact (Case3 eq_refl Ct)|].
  destruct k as [|k]; [cbn in E; injection E as <- <-; refine (Along (V3 1 (-1) 0) _ _ _); [discriminate|reflexivity]|].
  destruct k as [|k]; [cbn in E; injection E as <- <-; refine (Along (V3 1 0 1) _ _ _); [discriminate|reflexivity]|].
  destruct k as [|k]; [cbn in E; injection E as <- <-; exact (Case6 eq_refl Ct)|].
  destruct k as [|k]; [cbn in E; injection E as <- <-; exact (Match (recip b (V3 0 1 0)) eq_refl)|].
  destruct k as [|k]; [cbn in E; injection E as <- <-; refine (Along (V3 0 1 (-1)) _ _ _); [discriminate|reflexivity]|].
  lia.
Qed.
Lemma direct_normal k : (k < 2)%nat -> qzero (qcross (nth k (reis b) (Q3 0 0 0)) a) = true ->
  dot (if (k =? 0)%nat then recip b (V3 0 1 0) else recip b (V3 1 0 0)) a == 0.
Proof.
  intros Hk P. apply qzero_place in P. change (same_place (cross (nth k (reis b) (Q3 0 0 0)) a) (Q3 0 0 0)) in P. destruct k as [|[|k]]; [| |lia]; cbn [Nat.eqb].
  - apply (parallel_dot (from_uvw b (V3 1 0 0))); [exact P|apply uvw_nonzero; [exact I|discriminate]|]. rewrite dot_comm, uvw_recip. reflexivity.
  - apply (parallel_dot (from_uvw b (V3 0 1 0))); [exact P|apply uvw_nonzero; [exact I|discriminate]|]. rewrite dot_comm, uvw_recip. reflexivity.
Qed.
Lemma covers_arises ns : small_matrix r -> matching_axis b r -> arises b r ns ->
  covers b r ns \/ (is_mirror r /\ exists n, ns = [n] /\ dot n a == 0).
Proof.
  intros Sm Ma [e1 e2 k V Hk E P Ct|k V Hk P|s V|p pt0 pt1 j O Hj E0 E1 _ _|pt s O _].
  - left. assert (Tw : is_two_fold r) by (destruct (order_two (isometry_order r (or_introl V))) as [(H & _)|(_ & H)]; [exact H|congruence]). apply covers_half; [exact Tw|]. now apply (table_normal k).
  - left. assert (Tw : is_two_fold r) by (destruct (order_two (isometry_order r (or_introl V))) as [(H & _)|(_ & H)]; [exact H|congruence]). apply covers_half; [exact Tw|]. now apply direct_normal.
  - left. assert (Mi : is_mirror r) by (destruct (order_two (isometry_order r (or_intror V))) as [(_ & H)|(H & _)]; [congruence|exact H]). apply covers_mirror; [exact Mi|]. intros x. pose proof (op_axis b r (axis r) I axis_good x) as H.
    destruct Mi as (D & _). rewrite D in H. change (inject_Z (-1)) with (-(1)) in H. fold (axis_of b r) in H. fold a in H. fold a. destruct s; [rewrite H; ring|]. assert (K : forall y, dot (qscale (-1) a) y == - dot a y) by (intros y; unfold dot, qscale; cbn [qx qy qz]; ring). rewrite !K, H. ring.
  - left. destruct (covers_pair p pt0 pt1 j O Hj E0 E1) as [A B]. fold a. destruct (qneg _); assumption.
  - assert (H : dot (if s then qcross a pt else qscale (-1) (qcross a pt)) a == 0) by (destruct s; unfold dot, qcross, qscale; cbn [qx qy qz]; ring).
    destruct (order_two O) as [(Tw & _)|(Mi & _)]; [left; apply covers_half; assumption|right]. split; [exact Mi|]. eexists. split; [reflexivity|exact H].
Qed.
End One.
