(** Basis vectors of lattices and the lengths and angles of them. *)
From Coq Require Import Reals ZArith Lra Lia.
From Verif Require Import Base PrimitiveModel AngleModel AngleSpec AngleProofs LatticeModel LatticeSpec LatticeDualProofs LatticeVectorProofs LatticeUseProofs LatticeWitnessProofs.
Local Open Scope R_scope.

Theorem dual_lattice_parameters : forall m m' l c s, has_parameters m l c -> sines_of c s -> dual_to m m' ->
  exists l' c' s', dual_parameters l c s = Ok (l', c', s') /\ has_parameters m' l' c' /\ sines_of c' s'.
Proof. exact dual_parameters_proof. Qed.
Print Assumptions dual_lattice_parameters.
(** Three vectors no two of which are at a right angle. *)
Example oblique : let m := Mat 3 3 1 0 4 2 0 0 2 in let c := R3 (11/15) (1/3) (3/5) in
  has_parameters m (R3 3 5 3) c /\ sines_of c (R3 (sqrt (104/225)) (sqrt (8/9)) (4/5)) /\ triple m <> 0.
Proof.
  cbv zeta. split; [|split].
  - unfold has_parameters, dot, va, vb, vc; cbn [rx ry rz e00 e01 e02 e10 e11 e12 e20 e21 e22]; repeat split; lra.
  - unfold sines_of; cbn [rx ry rz]. rewrite !sqrt_sqrt by lra. repeat split; try lra; apply sqrt_lt_R0; lra.
  - unfold triple, dot, cross, va, vb, vc; cbn [rx ry rz e00 e01 e02 e10 e11 e12 e20 e21 e22]; lra.
Qed.

Theorem vectors_from_parameters : forall bits v a lu au c s, to_cosines_sines bits a au = Ok (c, s) -> lu <> OtherUnit ->
  0 < rx v -> 0 < ry v -> 0 < rz v -> sines_of c s -> (exists m, triple m <> 0 /\ has_parameters m v c) ->
  exists real recip, set_parameters bits v a lu au = Ok (real, recip) /\ dual_to real recip /\ 0 < triple real /\ has_parameters (match lu with Angstrom => real | _ => recip end) v c /\
    ry (va recip) = 0 /\ rz (va recip) = 0 /\ rz (vb recip) = 0 /\ 0 < rx (va recip) /\ 0 < ry (vb recip).
Proof. exact set_parameters_proof. Qed.
Print Assumptions vectors_from_parameters.
Theorem parameters_come_back : forall bits v a u c s, u <> NotProvided -> to_cosines_sines bits a u = Ok (c, s) -> (2 <= bits)%nat ->
  0 < rx v -> 0 < ry v -> 0 < rz v -> 0 < in_radians u (rx a) < PI -> 0 < in_radians u (ry a) < PI -> 0 < in_radians u (rz a) < PI -> (exists m, triple m <> 0 /\ has_parameters m v c) -> forall lu, lu <> OtherUnit ->
  exists real recip, set_parameters bits v a lu u = Ok (real, recip) /\ let m := match lu with Angstrom => real | _ => recip end in lengths m = Ok v /\ angles m u = Ok a.
Proof. exact round_trip_proof. Qed.
Print Assumptions parameters_come_back.
(** A hexagonal lattice. *)
Example hexagonal : exists real recip, set_parameters 3 (R3 2 2 5) (R3 90 90 120) Angstrom Degree = Ok (real, recip) /\ lengths real = Ok (R3 2 2 5) /\ angles real Degree = Ok (R3 90 90 120).
Proof.
  pose proof PI_RGT_0. destruct (hexagonal_cosines 3 ltac:(lia)) as (c & s & E & C).
  refine (parameters_come_back 3 (R3 2 2 5) (R3 90 90 120) Degree c s ltac:(discriminate) E ltac:(lia) _ _ _ _ _ _ _ Angstrom ltac:(discriminate)); cbn [rx ry rz in_radians]; try lra.
  exists (Mat 2 (-1) 0 0 (sqrt 3) 0 0 0 5). pose proof (sqrt_lt_R0 3 ltac:(lra)). pose proof (sqrt_sqrt 3 ltac:(lra)). rewrite C. split.
  - unfold triple, dot, cross, va, vb, vc; cbn [rx ry rz e00 e01 e02 e10 e11 e12 e20 e21 e22]; lra.
  - unfold has_parameters, dot, va, vb, vc; cbn [rx ry rz e00 e01 e02 e10 e11 e12 e20 e21 e22]; repeat split; lra.
Qed.
Theorem impossible_parameters_throw : forall bits v a lu au c s, to_cosines_sines bits a au = Ok (c, s) -> 
  0 < rx v -> 0 < ry v -> 0 < rz v -> sines_of c s -> ~ (exists m, triple m <> 0 /\ has_parameters m v c) -> set_parameters bits v a lu au = Throw.
Proof. exact set_parameters_throws_proof. Qed.
Print Assumptions impossible_parameters_throw.
(** Three angles of 120 degrees are those of vectors in a plane. *)
Example three_times_120 : exists c s, to_cosines_sines 3 (R3 120 120 120) Degree = Ok (c, s) /\ sines_of c s /\ ~ (exists m, triple m <> 0 /\ has_parameters m (R3 1 1 1) c) /\ set_parameters 3 (R3 1 1 1) (R3 120 120 120) Angstrom Degree = Throw.
Proof.
  destruct (plane_of_120 3) as (c & s & E & S & N); [lia|]. exists c, s. repeat (split; [assumption|]). apply (impossible_parameters_throw 3 _ _ Angstrom Degree c s E); cbn [rx ry rz]; try lra; assumption.
Qed.

Theorem vectors_from_matrix : forall m, triple m <> 0 -> exists m', set_matrix m Angstrom = Ok (m, m') /\ set_matrix m InverseAngstrom = Ok (m', m) /\ dual_to m m' /\ dual_to m' m.
Proof. exact set_matrix_proof. Qed.
Print Assumptions vectors_from_matrix.
Theorem to_and_from_xyz : forall real recip u, dual_to real recip -> u <> OtherUnit -> exists t f, to_xyz real recip u = Ok t /\ from_xyz real recip u = Ok f /\
  (forall x, mul_mat_vec t x = at_ (match u with Angstrom => real | _ => recip end) x) /\
  (forall x, mul_mat_vec f (mul_mat_vec t x) = x) /\ (forall x, mul_mat_vec t (mul_mat_vec f x) = x).
Proof. exact xyz_proof. Qed.
Print Assumptions to_and_from_xyz.
Theorem metric_tensor : forall m x y, dot (at_ m x) (at_ m y) = dot x (at_ (metric m) y).
Proof. exact metric_proof. Qed.
Print Assumptions metric_tensor.
Theorem metric_of_dual : forall m m' x, dual_to m m' -> at_ (metric m') (at_ (metric m) x) = R3 (2 * PI * (2 * PI) * rx x) (2 * PI * (2 * PI) * ry x) (2 * PI * (2 * PI) * rz x).
Proof. exact metric_dual_proof. Qed.
Print Assumptions metric_of_dual.
Theorem volume_of_dual : forall m m', dual_to m m' -> determinant m * determinant m' = 2 * PI * (2 * PI) * (2 * PI).
Proof. exact volume_proof. Qed.
Print Assumptions volume_of_dual.
Theorem lengths_of_vectors : forall m l c, has_parameters m l c -> lengths m = Ok l.
Proof. exact lengths_proof. Qed.
Print Assumptions lengths_of_vectors.
Theorem angles_of_vectors : forall m l c u, has_parameters m l c -> triple m <> 0 -> u <> NotProvided -> exists a, angles m u = Ok a /\
  0 < in_radians u (rx a) < PI /\ 0 < in_radians u (ry a) < PI /\ 0 < in_radians u (rz a) < PI /\
  cos (in_radians u (rx a)) = rx c /\ cos (in_radians u (ry a)) = ry c /\ cos (in_radians u (rz a)) = rz c.
Proof. exact angles_of_proof. Qed.
Print Assumptions angles_of_vectors.
Example oblique_has_a_dual : exists m', set_matrix (Mat 3 3 1 0 4 2 0 0 2) Angstrom = Ok (Mat 3 3 1 0 4 2 0 0 2, m') /\ dual_to (Mat 3 3 1 0 4 2 0 0 2) m' /\ lengths (Mat 3 3 1 0 4 2 0 0 2) = Ok (R3 3 5 3).
Proof.
  destruct oblique as (P & _ & N). destruct (vectors_from_matrix _ N) as (m' & E & _ & D & _). exists m'. split; [exact E|]. split; [exact D|]. exact (lengths_of_vectors _ _ _ P).
Qed.
(** A matrix of vectors in a plane should be refused; it is not, and the reciprocal vectors are zero. *)
Theorem singular_matrix_refuted : exists m real recip, triple m = 0 /\ set_matrix m Angstrom = Ok (real, recip) /\ ~ dual_to real recip.
Proof. exact singular_proof. Qed.
Print Assumptions singular_matrix_refuted.
