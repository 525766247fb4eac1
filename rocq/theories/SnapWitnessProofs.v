(** Lattices that are not handled rightly. *)
From Coq Require Import Reals ZArith Lra Lia List Bool.
From Verif Require Import Base Array2Model PrimitiveModel MatSpec SymmetryModel AngleModel AngleSpec AngleProofs LatticeModel LatticeSpec LatticeDualProofs LatticeVectorProofs LatticeUseProofs OrientModel OrientSpec OrientProofs ReassembleProofs SnapModel SnapSpec SnapProofs SnapVectorProofs.
Import ListNotations.
Local Open Scope R_scope.

Definition m3_eqb (a b : m3) : bool :=
  (Z.eqb (m00 a) (m00 b) && Z.eqb (m01 a) (m01 b) && Z.eqb (m02 a) (m02 b) && Z.eqb (m10 a) (m10 b) && Z.eqb (m11 a) (m11 b) && Z.eqb (m12 a) (m12 b) && Z.eqb (m20 a) (m20 b) && Z.eqb (m21 a) (m21 b) && Z.eqb (m22 a) (m22 b))%bool.
Lemma m3_eqb_ok a b : m3_eqb a b = true -> a = b.
Proof. unfold m3_eqb. rewrite !andb_true_iff, !Z.eqb_eq. destruct a, b; cbn. intros H. decompose [and] H. subst. reflexivity. Qed.
Definition groupb (ops : list m3) : bool :=
  (existsb (m3_eqb I3) ops && forallb (fun r => forallb (fun s => existsb (m3_eqb (mul3 r s)) ops) ops) ops && forallb (fun r => existsb (fun s => m3_eqb (mul3 s r) I3) ops) ops)%bool.
Lemma groupb_ok ops : groupb ops = true -> group ops.
Proof.
  unfold groupb. rewrite !andb_true_iff, !forallb_forall. intros [[A B] C].
  assert (E : forall r, existsb (m3_eqb r) ops = true -> In r ops) by (intros r H; apply existsb_exists in H; destruct H as (x & Hx & H); apply m3_eqb_ok in H; now subst).
  split; [now apply E|]. split.
  - intros r s Hr Hs. apply E. specialize (B r Hr). rewrite forallb_forall in B. now apply B.
  - intros r Hr. specialize (C r Hr). apply existsb_exists in C. destruct C as (s & Hs & H). exists s. split; [assumption|]. now apply m3_eqb_ok.
Qed.
(** Two-fold axes along x, y and z. *)
Definition twofold : list m3 := [I3; M3 1 0 0 0 (-1) 0 0 0 (-1); M3 (-1) 0 0 0 1 0 0 0 (-1); M3 (-1) 0 0 0 (-1) 0 0 0 1].
Lemma off_proof : exists ops v c0 c s, group ops /\ (exists m, triple m <> 0 /\ has_parameters m v c0 /\ has_symmetry true ops m) /\ near (1/100) c c0 /\ sines_of c s /\ (exists m, triple m <> 0 /\ has_parameters m v c) /\
  snap_to_symmetry 3 bravP ops true v c s = Ok (false, (v, c, s)) /\ forall m, has_parameters m v c -> ~ has_symmetry true ops m.
Proof.
  exists twofold, (R3 1 2 3), (R3 0 0 0), (R3 0 0 (3/500)), (R3 1 1 (sqrt (1 - 3/500 * (3/500)))).
  assert (Sq : 0 < 1 - 3/500 * (3/500)) by lra.
  assert (S : sines_of (R3 0 0 (3/500)) (R3 1 1 (sqrt (1 - 3/500 * (3/500))))).
  { unfold sines_of; cbn [rx ry rz]. rewrite sqrt_sqrt by lra. repeat split; try lra. now apply sqrt_lt_R0. }
  split; [apply groupb_ok; vm_compute; reflexivity|]. split; [|split; [|split; [exact S|split; [|split]]]].
  - exists (Mat 1 0 0 0 2 0 0 0 3). split; [unfold triple, dot, cross, va, vb, vc; cbn [rx ry rz e00 e01 e02 e10 e11 e12 e20 e21 e22]; lra|]. split.
    + unfold has_parameters, dot, va, vb, vc; cbn [rx ry rz e00 e01 e02 e10 e11 e12 e20 e21 e22]. repeat split; lra.
    + intros r [<-|[<-|[<-|[<-|[]]]]] x y; unfold side, I3, act, at_, dot; cbn [rx ry rz e00 e01 e02 e10 e11 e12 e20 e21 e22 m00 m01 m02 m10 m11 m12 m20 m21 m22]; ring.
  - unfold near; cbn [rx ry rz]. repeat split; (apply Rabs_le; lra) || (apply Rabs_def1; lra).
  - apply (physical (R3 1 2 3) _ _ ltac:(cbn [rx]; lra) ltac:(cbn [ry]; lra) ltac:(cbn [rz]; lra) S). unfold squared; cbn [rx ry rz]. lra.
  - unfold snap_to_symmetry, snapped.
    assert (M : main twofold true 0 = false /\ main twofold true 1 = false /\ main twofold true 2 = false) by (vm_compute; auto). destruct M as (M0 & M1 & M2).
    rewrite M0, M1. cbn [andb]. unfold main_step. cbn [foldM]. rewrite M0, M1, M2. cbn [bind foldM orb andb]. reflexivity.
  - intros m P H. destruct P as (_ & _ & _ & _ & _ & _ & _ & _ & F). cbn [rx ry rz] in F.
    specialize (H (M3 1 0 0 0 (-1) 0 0 0 (-1)) ltac:(cbn; auto) (R3 1 0 0) (R3 0 1 0)).
    unfold side, act, at_, dot in H; cbn [rx ry rz m00 m01 m02 m10 m11 m12 m20 m21 m22] in H. unfold dot, va, vb in F; cbn [rx ry rz] in F. lra.
Qed.
(** A rhombohedral lattice whose second vector is reversed. *)
Definition sixfold : list m3 :=
  [I3; M3 0 0 (-1) 1 0 0 0 1 0; M3 0 (-1) 0 0 0 (-1) 1 0 0; M3 (-1) 0 0 0 (-1) 0 0 0 (-1); M3 0 0 1 (-1) 0 0 0 (-1) 0; M3 0 1 0 0 0 1 (-1) 0 0].
Lemma changed_proof : exists ops m v c s c' s', group ops /\ triple m <> 0 /\ has_parameters m v c /\ sines_of c s /\ has_symmetry true ops m /\
  snap_to_symmetry 3 bravP ops true v c s = Ok (true, (v, c', s')) /\ forall m', has_parameters m' v c' -> ~ has_symmetry true ops m'.
Proof.
  exists sixfold, (Mat 1 (-2) 2 2 (-1) 2 2 (-2) 1), (R3 3 3 3), (R3 (-8/9) (8/9) (-8/9)), (R3 (sqrt (17/81)) (sqrt (17/81)) (sqrt (17/81))), (R3 (-8/27) (-8/27) (-8/27)), (R3 (sqrt (1 - -8/27 * (-8/27))) (sqrt (1 - -8/27 * (-8/27))) (sqrt (1 - -8/27 * (-8/27)))).
  split; [apply groupb_ok; vm_compute; reflexivity|]. split; [unfold triple, dot, cross, va, vb, vc; cbn [rx ry rz e00 e01 e02 e10 e11 e12 e20 e21 e22]; lra|].
  split; [unfold has_parameters, dot, va, vb, vc; cbn [rx ry rz e00 e01 e02 e10 e11 e12 e20 e21 e22]; repeat split; lra|].
  split; [unfold sines_of; cbn [rx ry rz]; rewrite sqrt_sqrt by lra; repeat split; try lra; apply sqrt_lt_R0; lra|].
  split; [intros r [<-|[<-|[<-|[<-|[<-|[<-|[]]]]]]] x y; unfold side, I3, act, at_, dot; cbn [rx ry rz e00 e01 e02 e10 e11 e12 e20 e21 e22 m00 m01 m02 m10 m11 m12 m20 m21 m22]; ring|].
  split.
  - unfold snap_to_symmetry, snapped.
    assert (M : main sixfold true 0 = true /\ main sixfold true 1 = true /\ dual sixfold true 0 = true /\ dual sixfold true 1 = true) by (vm_compute; auto). destruct M as (M0 & M1 & D0 & D1).
    rewrite M0, M1, D0, D1. cbn [andb orb hint is_P negb rx ry rz].
    assert (E1 : equal3 3 3 3 = 3) by (apply equal3_same; reflexivity).
    assert (E2 : equal3 (-8/9) (8/9) (-8/9) = -8/27). { unfold equal3. replace (eqb (-8/9) (8/9)) with false; [cbn [andb]; lra|]. symmetry. unfold eqb. destruct (Req_EM_T (-8/9) (8/9)); [lra|reflexivity]. }
    rewrite E1, E2. rewrite rsqrt_ok by lra. cbn [bind existsb get3 rx ry rz].
    assert (F : eqb (-8/9 - -8/27) 0 = false) by (unfold eqb; destruct (Req_EM_T (-8/9 - -8/27) 0); [lra|reflexivity]).
    rewrite F. cbn [negb orb]. rewrite !orb_true_r. reflexivity.
  - intros m' P H. destruct P as (_ & _ & _ & _ & _ & _ & _ & E & F). cbn [rx ry rz] in E, F.
    specialize (H (M3 0 (-1) 0 0 0 (-1) 1 0 0) ltac:(cbn; auto) (R3 1 0 0) (R3 0 1 0)).
    unfold side, act, at_, dot in H; cbn [rx ry rz m00 m01 m02 m10 m11 m12 m20 m21 m22] in H. unfold dot, va, vb, vc in E, F; cbn [rx ry rz] in E, F. lra.
Qed.
(** A cubic lattice with the third vector along the diagonal of a face. *)
Definition threefold : list m3 := [I3; M3 0 (-1) 1 1 0 1 0 1 0; M3 (-1) 1 (-1) 0 0 1 1 0 1].
Lemma throws_proof : exists ops m v c s, group ops /\ triple m <> 0 /\ has_parameters m v c /\ sines_of c s /\ has_symmetry true ops m /\ snap_to_symmetry 3 bravP ops true v c s = Throw.
Proof.
  pose proof (sqrt_lt_R0 2 ltac:(lra)) as Q. pose proof (sqrt_sqrt 2 ltac:(lra)) as QQ.
  exists threefold, (Mat 1 0 1 0 1 0 0 0 1), (R3 1 1 (sqrt 2)), (R3 0 (1 / sqrt 2) 0), (R3 1 (1 / sqrt 2) 1).
  split; [apply groupb_ok; vm_compute; reflexivity|]. split; [unfold triple, dot, cross, va, vb, vc; cbn [rx ry rz e00 e01 e02 e10 e11 e12 e20 e21 e22]; lra|].
  split. { unfold has_parameters, dot, va, vb, vc; cbn [rx ry rz e00 e01 e02 e10 e11 e12 e20 e21 e22]. repeat split; try lra. field. lra. }
  split. { unfold sines_of; cbn [rx ry rz]. assert (E : 1 / sqrt 2 * (1 / sqrt 2) = 1 / 2) by (replace (1 / sqrt 2 * (1 / sqrt 2)) with (1 / (sqrt 2 * sqrt 2)) by (field; lra); now rewrite QQ). repeat split; try lra. apply Rdiv_lt_0_compat; lra. }
  split; [intros r [<-|[<-|[<-|[]]]] x y; unfold side, I3, act, at_, dot; cbn [rx ry rz e00 e01 e02 e10 e11 e12 e20 e21 e22 m00 m01 m02 m10 m11 m12 m20 m21 m22]; ring|].
  unfold snap_to_symmetry, snapped.
  assert (M : main threefold true 0 = true /\ main threefold true 1 = false /\ dual threefold true 0 = false /\ dual threefold true 1 = true) by (vm_compute; auto). destruct M as (M0 & M1 & D0 & D1).
  rewrite M0, M1. cbn [andb foldM]. unfold main_step at 1. rewrite M0, D0. cbn [andb existsb Nat.eqb negb orb]. rewrite D1. reflexivity.
Qed.
(** A tetragonal lattice in the xy plane, nearly. *)
Definition fourfold : list m3 := [I3; M3 0 (-1) 0 1 0 0 0 0 1; M3 (-1) 0 0 0 (-1) 0 0 0 1; M3 0 1 0 (-1) 0 0 0 0 1].
Lemma tetragonal_snaps x y z : x <> y -> snap_to_symmetry 3 bravP fourfold true (R3 x y z) (R3 0 0 0) (R3 1 1 1) = Ok (true, (R3 ((x + y) / 2) ((x + y) / 2) z, R3 0 0 0, R3 1 1 1)).
Proof.
  intros N. unfold snap_to_symmetry, snapped.
  assert (M : main fourfold true 0 = true /\ main fourfold true 1 = false /\ main fourfold true 2 = false /\ dual fourfold true 0 = true /\ dual fourfold true 1 = false /\ dual fourfold true 2 = false) by (vm_compute; auto 6). destruct M as (M0 & M1 & M2 & D0 & D1 & D2).
  rewrite M0, M1. cbn [andb]. unfold main_step. cbn [foldM]. rewrite M0, M1, M2, D0, D1. cbn [andb existsb Nat.eqb negb orb]. rewrite D1, D2. cbn [orb bind].
  unfold level, hint, is_P, is_R. cbn [negb andb Nat.add Nat.modulo Nat.divmod fst snd Nat.sub get3 set3 rx ry rz].
  assert (Q : equal2 x y = (x + y) / 2) by (unfold equal2, eqb; destruct (Req_EM_T x y); lra). rewrite Q, (equal2_same 0 0 eq_refl).
  rewrite rsqrt_ok by lra. cbn [bind foldM]. replace (1 - 0 * 0) with 1 by ring. rewrite sqrt_1. cbn [set3 rx ry rz].
  assert (F : eqb (x - (x + y) / 2) 0 = false) by (unfold eqb; destruct (Req_EM_T (x - (x + y) / 2) 0); [lra|reflexivity]).
  cbn [bind existsb get3 rx ry rz]. rewrite F. reflexivity.
Qed.
Definition flat : mat := Mat 3 (-4.004) 0 4 3.003 0 0 0 5.
Lemma flat_orientation : standard_orientation flat = Mat 1 0 0 0 1 0 0 0 1.
Proof.
  rewrite standard_is. unfold flat. cbn [e00 e01 e02 e10 e11 e12 e20 e21 e22].
  assert (A : arctan (- (4)) 0 = - (PI / 2)). { unfold arctan. replace (eqb (Rabs (- (4))) 0) with false by (symmetry; unfold eqb; destruct (Req_EM_T _ _) as [E|E]; [rewrite Rabs_left in E; lra|reflexivity]).
    unfold atan2. rewrite (proj2 (ltb_false 0 0)), (proj2 (ltb_false 0 (- (4)))), (proj2 (ltb_iff (- (4)) 0)) by lra. reflexivity. }
  rewrite A, cos_neg, sin_neg, cos_PI2, sin_PI2, Ropp_0, arctan_zero, cos_0, sin_0.
  replace (-4.004 * 0 - 3.003 * 1 * - (1) + 0 * 1 * 0) with 3.003 by lra. replace (3.003 * 0 + 0 * - (1)) with 0 by lra.
  assert (B : arctan 3.003 0 = PI / 2). { unfold arctan. replace (eqb (Rabs 3.003) 0) with false by (symmetry; unfold eqb; destruct (Req_EM_T _ _) as [E|E]; [rewrite Rabs_right in E; lra|reflexivity]).
    unfold atan2. rewrite (proj2 (ltb_false 0 0)), (proj2 (ltb_iff 0 3.003)) by lra. reflexivity. }
  rewrite B, cos_PI2, sin_PI2. unfold turn. f_equal; lra.
Qed.
Lemma rotated_proof : exists ops real recip real' recip', group ops /\ dual_to real recip /\ 0 < triple real /\ (exists m, has_symmetry true ops m /\ near (1/100) (va m) (va real) /\ near (1/100) (vb m) (vb real) /\ near (1/100) (vc m) (vc real)) /\
  snap_vectors 3 bravP ops true real recip = Ok (real', recip') /\ va real = R3 3 4 0 /\ va real' = R3 5.0025 0 0.
Proof.
  assert (T : triple flat = 5 * 5.005 * 5) by (unfold flat, triple, dot, cross, va, vb, vc; cbn [rx ry rz e00 e01 e02 e10 e11 e12 e20 e21 e22]; lra).
  assert (P : has_parameters flat (R3 5 5.005 5) (R3 0 0 0)) by (unfold flat, has_parameters, dot, va, vb, vc; cbn [rx ry rz e00 e01 e02 e10 e11 e12 e20 e21 e22]; repeat split; lra).
  assert (S : sines_of (R3 0 0 0) (R3 1 1 1)) by (unfold sines_of; cbn [rx ry rz]; repeat split; lra).
  exists fourfold, flat, (other flat). eexists; eexists. split; [apply groupb_ok; vm_compute; reflexivity|]. split; [apply other_dual; lra|]. split; [lra|]. split; [|split; [|split]].
  - exists (Mat 3 (-4) 0 4 3 0 0 0 5). split.
    + intros r [<-|[<-|[<-|[<-|[]]]]] x y; unfold side, I3, act, at_, dot; cbn [rx ry rz e00 e01 e02 e10 e11 e12 e20 e21 e22 m00 m01 m02 m10 m11 m12 m20 m21 m22]; ring.
    + unfold near, flat, va, vb, vc; cbn [rx ry rz e00 e01 e02 e10 e11 e12 e20 e21 e22]. repeat split; (apply Rabs_le; lra).
  - unfold snap_vectors. destruct (pipeline 3 flat _ _ _ ltac:(lia) P ltac:(lra) S) as (a & E1 & E2 & E3). rewrite E1. cbn [bind]. rewrite E2. cbn [bind]. rewrite E3. cbn [bind].
    assert (Sn : snap_to_symmetry 3 bravP fourfold true (R3 5 5.005 5) (R3 0 0 0) (R3 1 1 1) = Ok (true, (R3 5.0025 5.0025 5, R3 0 0 0, R3 1 1 1))).
    { rewrite tetragonal_snaps by lra. replace ((5 + 5.005) / 2) with 5.0025 by lra. reflexivity. }
    rewrite Sn. cbn [bind]. unfold reassemble, upper_triangular. assert (Q1 : 0 < squared (R3 0 0 0)) by (unfold squared; cbn [rx ry rz]; lra). rewrite (unit_volume_ok _ Q1). cbn [bind]. rewrite !rdiv_ok by (cbn [rz]; lra). cbn [bind].
    rewrite flat_orientation. reflexivity.
  - reflexivity.
  - unfold va, mul_mat_mat, transpose. cbn [rx ry rz e00 e01 e02 e10 e11 e12 e20 e21 e22]. f_equal; lra.
Qed.
(** Vectors that are not turned to the standard orientation. *)
Lemma not_standard_proof : exists bv, 0 < triple bv /\ ~ standard (standard_orientation bv) bv.
Proof.
  exists flat. split; [unfold flat, triple, dot, cross, va, vb, vc; cbn [rx ry rz e00 e01 e02 e10 e11 e12 e20 e21 e22]; lra|].
  rewrite flat_orientation. unfold standard, flat, at_, va, vb. cbn [rx ry rz e00 e01 e02 e10 e11 e12 e20 e21 e22]. intros (_ & H & _). lra.
Qed.
