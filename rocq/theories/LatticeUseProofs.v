(** Conversions, metrics, lengths and angles of dual bases. *)
From Coq Require Import Reals Lra Lia.
From Verif Require Import Base PrimitiveModel AngleModel AngleSpec AngleProofs LatticeModel LatticeSpec LatticeDualProofs LatticeVectorProofs.
Local Open Scope R_scope.

Lemma xyz_proof : forall real recip u, dual_to real recip -> u <> OtherUnit -> exists t f, to_xyz real recip u = Ok t /\ from_xyz real recip u = Ok f /\
  (forall x, mul_mat_vec t x = at_ (match u with Angstrom => real | _ => recip end) x) /\
  (forall x, mul_mat_vec f (mul_mat_vec t x) = x) /\ (forall x, mul_mat_vec t (mul_mat_vec f x) = x).
Proof.
  intros real recip u D U. pose proof PI_RGT_0 as P.
  assert (G : forall m m', dual_to m m' -> let f := transpose (map_mat (fun x => x / (2 * PI)) m') in (forall x, mul_mat_vec m x = at_ m x) /\ (forall x, mul_mat_vec f (mul_mat_vec m x) = x) /\ (forall x, mul_mat_vec m (mul_mat_vec f x) = x)).
  { clear D U. intros m m' D f.
    assert (A1 : forall x, mul_mat_vec f (mul_mat_vec m x) = x).
    { destruct D as (A & B & C & E & F & G & H & I & J). intros x. unfold f, mul_mat_vec, transpose, map_mat. cbn [rx ry rz e00 e01 e02 e10 e11 e12 e20 e21 e22].
      unfold dot, va, vb, vc in *. cbn [rx ry rz] in *. apply r3_eq; cbn [rx ry rz].
      - transitivity ((rx x * (e00 m * e00 m' + e10 m * e10 m' + e20 m * e20 m') + ry x * (e01 m * e00 m' + e11 m * e10 m' + e21 m * e20 m') + rz x * (e02 m * e00 m' + e12 m * e10 m' + e22 m * e20 m')) / (2 * PI)); [field; lra|]. rewrite A, E, H. field. lra.
      - transitivity ((rx x * (e00 m * e01 m' + e10 m * e11 m' + e20 m * e21 m') + ry x * (e01 m * e01 m' + e11 m * e11 m' + e21 m * e21 m') + rz x * (e02 m * e01 m' + e12 m * e11 m' + e22 m * e21 m')) / (2 * PI)); [field; lra|]. rewrite B, F, I. field. lra.
      - transitivity ((rx x * (e00 m * e02 m' + e10 m * e12 m' + e20 m * e22 m') + ry x * (e01 m * e02 m' + e11 m * e12 m' + e21 m * e22 m') + rz x * (e02 m * e02 m' + e12 m * e12 m' + e22 m * e22 m')) / (2 * PI)); [field; lra|]. rewrite C, G, J. field. lra. }
    split; [intros x; unfold mul_mat_vec, at_; apply r3_eq; reflexivity|]. split; [exact A1|].
    pose proof (triple_nz _ _ D) as N. intros y.
    assert (Inj : forall p q, mul_mat_vec f p = mul_mat_vec f q -> p = q).
    { intros p q E.
      assert (S : forall w, exists x, w = mul_mat_vec m x).
      { intros w. exists (R3 (dot w (cross (vb m) (vc m)) / triple m) (dot w (cross (vc m) (va m)) / triple m) (dot w (cross (va m) (vb m)) / triple m)).
        assert (T : triple m = e00 m * (e11 m * e22 m - e21 m * e12 m) + e10 m * (e21 m * e02 m - e01 m * e22 m) + e20 m * (e01 m * e12 m - e11 m * e02 m)) by (unfold triple, dot, cross, va, vb, vc; cbn [rx ry rz]; ring).
        unfold mul_mat_vec. apply r3_eq; cbn [rx ry rz]; unfold dot, cross, va, vb, vc; cbn [rx ry rz]; (apply Rmult_eq_reg_r with (triple m); [|assumption]).
        - transitivity (rx w * triple m); [reflexivity|]. unfold Rdiv. match goal with |- _ = (?a * _ * _ + ?b * _ * _ + ?c * _ * _) * _ => transitivity ((a * e00 m + b * e01 m + c * e02 m) * (/ triple m * triple m)); [|ring] end. rewrite Rinv_l, T by assumption. ring.
        - transitivity (ry w * triple m); [reflexivity|]. unfold Rdiv. match goal with |- _ = (?a * _ * _ + ?b * _ * _ + ?c * _ * _) * _ => transitivity ((a * e10 m + b * e11 m + c * e12 m) * (/ triple m * triple m)); [|ring] end. rewrite Rinv_l, T by assumption. ring.
        - transitivity (rz w * triple m); [reflexivity|]. unfold Rdiv. match goal with |- _ = (?a * _ * _ + ?b * _ * _ + ?c * _ * _) * _ => transitivity ((a * e20 m + b * e21 m + c * e22 m) * (/ triple m * triple m)); [|ring] end. rewrite Rinv_l, T by assumption. ring. }
      destruct (S p) as [x ->], (S q) as [z ->]. rewrite !A1 in E. now rewrite E. }
    apply Inj. now rewrite A1. }
  destruct u; [| |congruence]; eexists; eexists; (split; [reflexivity|]); (split; [reflexivity|]).
  - exact (G _ _ D).
  - exact (G _ _ (dual_sym _ _ D)).
Qed.
(** Scalar products. *)
Lemma metric_proof : forall m x y, dot (at_ m x) (at_ m y) = dot x (at_ (metric m) y).
Proof. intros m x y. unfold metric, mul_mat_mat, transpose, at_, dot. cbn [rx ry rz e00 e01 e02 e10 e11 e12 e20 e21 e22]. ring. Qed.
Lemma metric_dual_proof : forall m m' x, dual_to m m' -> at_ (metric m') (at_ (metric m) x) = R3 (2 * PI * (2 * PI) * rx x) (2 * PI * (2 * PI) * ry x) (2 * PI * (2 * PI) * rz x).
Proof.
  intros m m' x D. destruct (xyz_proof _ _ Angstrom D ltac:(discriminate)) as (t & f & Et & Ef & _ & I1 & I2). injection Et as <-. injection Ef as <-.
  destruct (xyz_proof _ _ Angstrom (dual_sym _ _ D) ltac:(discriminate)) as (t' & f' & Et' & Ef' & _ & J1 & J2). injection Et' as <-. injection Ef' as <-.
  pose proof PI_RGT_0 as P.
  (* the transposed matrices invert each other up to a factor *)
  assert (K : forall y, at_ (transpose m') (at_ m y) = R3 (2 * PI * rx y) (2 * PI * ry y) (2 * PI * rz y)).
  { intros y. pose proof (I1 y) as E. revert E. unfold mul_mat_vec, transpose, map_mat, at_. cbn [rx ry rz e00 e01 e02 e10 e11 e12 e20 e21 e22]. intros E.
    pose proof (f_equal rx E) as E1. pose proof (f_equal ry E) as E2. pose proof (f_equal rz E) as E3. cbn [rx ry rz] in *. clear E.
    apply r3_eq; cbn [rx ry rz]; [rewrite <- E1 at 4|rewrite <- E2 at 4|rewrite <- E3 at 4]; field; lra. }
  assert (K' : forall y, at_ m' (at_ (transpose m) y) = R3 (2 * PI * rx y) (2 * PI * ry y) (2 * PI * rz y)).
  { intros y. pose proof (J2 y) as E. revert E. unfold mul_mat_vec, transpose, map_mat, at_. cbn [rx ry rz e00 e01 e02 e10 e11 e12 e20 e21 e22]. intros E.
    pose proof (f_equal rx E) as E1. pose proof (f_equal ry E) as E2. pose proof (f_equal rz E) as E3. cbn [rx ry rz] in *. clear E.
    apply r3_eq; cbn [rx ry rz]; [rewrite <- E1 at 4|rewrite <- E2 at 4|rewrite <- E3 at 4]; field; lra. }
  assert (M : forall n y, at_ (metric n) y = at_ (transpose n) (at_ n y)) by (intros n y; unfold metric, mul_mat_mat, transpose, at_; cbn [rx ry rz e00 e01 e02 e10 e11 e12 e20 e21 e22]; apply r3_eq; cbn [rx ry rz]; ring).
  assert (L : forall n k y, at_ n (R3 (k * rx y) (k * ry y) (k * rz y)) = R3 (k * rx (at_ n y)) (k * ry (at_ n y)) (k * rz (at_ n y))) by (intros n k y; unfold at_; cbn [rx ry rz]; apply r3_eq; cbn [rx ry rz]; ring).
  rewrite !M, K', L, K. cbn [rx ry rz]. apply r3_eq; cbn [rx ry rz]; ring.
Qed.
Lemma volume_proof : forall m m', dual_to m m' -> determinant m * determinant m' = 2 * PI * (2 * PI) * (2 * PI).
Proof. intros m m' D. rewrite !determinant_triple. now apply triple_dual. Qed.

(** Lengths and angles. *)
Lemma norm_ok x l : 0 < l -> dot x x = l * l -> norm x = Ok l.
Proof.
  intros L E. unfold norm. change (rdot x x) with (dot x x). rewrite E, rsqrt_ok by (apply Rlt_le, Rmult_lt_0_compat; assumption). now rewrite sqrt_square by lra.
Qed.
Lemma lengths_proof : forall m l c, has_parameters m l c -> lengths m = Ok l.
Proof.
  intros m l c (X & Y & Z & A & B & C & _). unfold lengths, length_of. cbn [column].
  change (R3 (e00 m) (e10 m) (e20 m)) with (va m). change (R3 (e01 m) (e11 m) (e21 m)) with (vb m). change (R3 (e02 m) (e12 m) (e22 m)) with (vc m).
  rewrite (norm_ok _ (rx l)), (norm_ok _ (ry l)), (norm_ok _ (rz l)) by assumption. cbn [bind]. f_equal. now apply r3_eq.
Qed.
Lemma angle_ok m i j k u lj lk c : j = column m ((i + 1) mod 3) -> k = column m ((i + 2) mod 3) -> 0 < lj -> 0 < lk -> dot j j = lj * lj -> dot k k = lk * lk -> dot j k = lj * lk * c -> -1 < c < 1 -> u <> NotProvided ->
  exists x, angle_of m i u = Ok x /\ 0 < in_radians u x < PI /\ cos (in_radians u x) = c.
Proof.
  intros Ej Ek Lj Lk Dj Dk Djk C U. unfold angle_of. rewrite <- Ej, <- Ek, (norm_ok j lj), (norm_ok k lk) by assumption. cbn [bind]. change (rdot j k) with (dot j k).
  rewrite rdiv_ok by lra. cbn [bind]. rewrite rdiv_ok by lra. cbn [bind].
  replace (dot j k / lj / lk) with c by (rewrite Djk; field; lra).
  pose proof (acos_bound c) as Bd. pose proof (cos_acos c ltac:(lra)) as Ca. pose proof PI_RGT_0 as P.
  assert (B0 : acos c <> 0) by (intros E; rewrite E, cos_0 in Ca; lra). assert (B1 : acos c <> PI) by (intros E; rewrite E, cos_PI in Ca; lra).
  destruct u; [congruence| | |]; eexists; (split; [reflexivity|]); cbn [in_radians].
  - split; [lra|assumption].
  - replace (acos c / PI * 180 * (PI / 180)) with (acos c) by (field; lra). split; [lra|assumption].
  - replace (acos c / PI * PI) with (acos c) by (field; lra). split; [lra|assumption].
Qed.
Lemma cos_below m l c : has_parameters m l c -> triple m <> 0 -> -1 < rx c < 1 /\ -1 < ry c < 1 /\ -1 < rz c < 1.
Proof.
  intros P N. pose proof (squared_pos _ _ _ P N) as Q. destruct P as (X & Y & Z & A & B & C & D & E & F).
  assert (G : forall x y lx ly k, 0 < lx -> 0 < ly -> dot x x = lx * lx -> dot y y = ly * ly -> dot x y = lx * ly * k -> dot (cross x y) (cross x y) <> 0 -> -1 < k < 1).
  { clear. intros x y lx ly k Lx Ly Dx Dy Dk N. assert (L : dot (cross x y) (cross x y) = lx * lx * (ly * ly) * (1 - k * k)).
    { transitivity (dot x x * dot y y - dot x y * dot x y); [unfold dot, cross; cbn [rx ry rz]; ring|]. rewrite Dx, Dy, Dk. ring. }
    assert (S : 0 <= dot (cross x y) (cross x y)) by (unfold dot; nra).
    assert (K : 0 < lx * lx * (ly * ly)) by (repeat apply Rmult_lt_0_compat; assumption).
    assert (W : 0 < 1 - k * k). { rewrite L in S, N. destruct (Rlt_dec 0 (1 - k * k)) as [H|H]; [assumption|]. exfalso. apply N. assert (1 - k * k <= 0) by lra. set (t := lx * lx * (ly * ly)) in *. nra. }
    nra. }
  assert (O : forall x, dot x x = 0 -> x = R3 0 0 0) by (intros x H; unfold dot in H; apply r3_eq; cbn; nra).
  assert (T1 : triple m = dot (va m) (cross (vb m) (vc m))) by reflexivity.
  assert (T2 : triple m = dot (vb m) (cross (vc m) (va m))) by (unfold triple, dot, cross; cbn [rx ry rz]; ring).
  assert (T3 : triple m = dot (vc m) (cross (va m) (vb m))) by (unfold triple, dot, cross; cbn [rx ry rz]; ring).
  assert (Z0 : forall x, dot x (R3 0 0 0) = 0) by (intros; unfold dot; cbn; ring).
  split; [|split].
  - apply (G (vb m) (vc m) (ry l) (rz l)); try assumption. intros H. apply O in H. rewrite T1, H, Z0 in N. congruence.
  - apply (G (vc m) (va m) (rz l) (rx l)); try assumption. intros H. apply O in H. rewrite T2, H, Z0 in N. congruence.
  - apply (G (va m) (vb m) (rx l) (ry l)); try assumption. intros H. apply O in H. rewrite T3, H, Z0 in N. congruence.
Qed.
Lemma angles_of_proof : forall m l c u, has_parameters m l c -> triple m <> 0 -> u <> NotProvided -> exists a, angles m u = Ok a /\
  0 < in_radians u (rx a) < PI /\ 0 < in_radians u (ry a) < PI /\ 0 < in_radians u (rz a) < PI /\
  cos (in_radians u (rx a)) = rx c /\ cos (in_radians u (ry a)) = ry c /\ cos (in_radians u (rz a)) = rz c.
Proof.
  intros m l c u P N U. destruct (cos_below _ _ _ P N) as (Cx & Cy & Cz). destruct P as (X & Y & Z & A & B & C & D & E & F). unfold angles.
  destruct (angle_ok m 0 (vb m) (vc m) u (ry l) (rz l) (rx c)) as (x & Ex & Bx & Kx); try assumption; try reflexivity.
  destruct (angle_ok m 1 (vc m) (va m) u (rz l) (rx l) (ry c)) as (y & Ey & By & Ky); try assumption; try reflexivity.
  destruct (angle_ok m 2 (va m) (vb m) u (rx l) (ry l) (rz c)) as (z & Ez & Bz & Kz); try assumption; try reflexivity.
  rewrite Ex. cbn [bind]. rewrite Ey. cbn [bind]. rewrite Ez. cbn [bind]. eexists. split; [reflexivity|]. cbn [rx ry rz]. tauto.
Qed.
(** What goes in comes out. *)
Lemma round_trip_proof : forall bits v a u c s, u <> NotProvided -> to_cosines_sines bits a u = Ok (c, s) -> (2 <= bits)%nat ->
  0 < rx v -> 0 < ry v -> 0 < rz v -> 0 < in_radians u (rx a) < PI -> 0 < in_radians u (ry a) < PI -> 0 < in_radians u (rz a) < PI -> (exists m, triple m <> 0 /\ has_parameters m v c) -> forall lu, lu <> OtherUnit ->
  exists real recip, set_parameters bits v a lu u = Ok (real, recip) /\ let m := match lu with Angstrom => real | _ => recip end in lengths m = Ok v /\ angles m u = Ok a.
Proof.
  intros bits v a u c s U E B X Y Z Ax Ay Az M lu Lu.
  destruct (angles_proof bits a u B U) as (c0 & s0 & E0 & H). rewrite E in E0. injection E0 as <- <-. destruct H as (C1 & C2 & C3 & S1 & S2 & S3).
  assert (S : sines_of c s).
  { unfold sines_of. rewrite C1, C2, C3, S1, S2, S3. pose proof (fun x => sin2_cos2 x) as Q. unfold Rsqr in Q. repeat split; try apply Q; apply sin_gt_0; lra. }
  destruct (set_parameters_proof bits v a lu u c s E Lu X Y Z S M) as (real & recip & R & D & T & P & _). exists real, recip. split; [assumption|].
  set (m := match lu with Angstrom => real | _ => recip end) in *. cbv zeta. split; [now apply lengths_proof with c|].
  assert (N : triple m <> 0). { pose proof (triple_nz _ _ D). pose proof (triple_nz _ _ (dual_sym _ _ D)). unfold m. now destruct lu. }
  destruct (angles_of_proof m v c u P N U) as (a' & Ra & Bx & By & Bz & Kx & Ky & Kz). rewrite Ra. f_equal.
  assert (I : forall x y, 0 < in_radians u x < PI -> 0 < in_radians u y < PI -> cos (in_radians u x) = cos (in_radians u y) -> x = y).
  { intros x y Hx Hy K. assert (J : in_radians u x = in_radians u y) by (rewrite <- (acos_cos (in_radians u x)), <- (acos_cos (in_radians u y)), K by lra; reflexivity).
    pose proof PI_RGT_0. destruct u; cbn [in_radians] in J; [assumption|assumption| |].
    - apply Rmult_eq_reg_r in J; [assumption|]. apply Rgt_not_eq. lra.
    - apply Rmult_eq_reg_r in J; [assumption|]. lra. }
  apply r3_eq; apply I; try assumption; congruence.
Qed.
