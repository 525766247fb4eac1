(** C24, C30 and C34. *)
From Verif Require Import Base MatModel MatSpec MatProofs MotionModel MotionSpec MotionProofs
  IsometryModel IsometrySpec IsometryProofs.
Local Open Scope Z_scope.

(** * C34: matrices *)
Theorem multiply_arrays_correct : forall N I M A B,
  length (multiply_arrays N I M A B) = (N * M)%nat /\
  forall i j, (i < N)%nat -> (j < M)%nat ->
    nth (i * M + j) (multiply_arrays N I M A B) 0 =
    sumn (fun k => nth (i * I + k) A 0 * nth (k * M + j) B 0) I.
Proof. exact multiply_arrays_proof. Qed.
Print Assumptions multiply_arrays_correct.

Theorem matrix_algebra : forall a b,
  multiply_matrix_matrix 3 (l9 a) (l9 b) = l9 (mul3 a b) /\
  matrix_determinant (l9 a) 3 = det3 a /\
  matrix_determinant (multiply_matrix_matrix 3 (l9 a) (l9 b)) 3 =
    matrix_determinant (l9 a) 3 * matrix_determinant (l9 b) 3 /\
  multiply_matrix_matrix 3 (l9 a) (matrix_adjoint (l9 a) 3) = l9 (scale3 (det3 a) I3) /\
  multiply_matrix_matrix 3 (matrix_adjoint (l9 a) 3) (l9 a) = l9 (scale3 (det3 a) I3).
Proof. exact matrix_algebra_proof. Qed.
Print Assumptions matrix_algebra.

Theorem matrix_inverse_unimodular : forall a, (det3 a = 1 \/ det3 a = -1) ->
  exists b, matrix_inverse (l9 a) 3 = Some (l9 b) /\ mul3 a b = I3 /\ mul3 b a = I3.
Proof. exact matrix_inverse_unimodular_proof. Qed.
Print Assumptions matrix_inverse_unimodular.

Theorem matrix_inverse_singular : forall a, matrix_inverse (l9 a) 3 = None <-> det3 a = 0.
Proof. exact matrix_inverse_singular_proof. Qed.
Print Assumptions matrix_inverse_singular.

Theorem matrix_inverse_exact_iff : forall a,
  (exists b, matrix_inverse (l9 a) 3 = Some (l9 b) /\ mul3 a b = I3) <-> (det3 a = 1 \/ det3 a = -1).
Proof. exact matrix_inverse_exact_iff_proof. Qed.
Print Assumptions matrix_inverse_exact_iff.

Theorem transpose_correct : forall a,
  array_transpose 3 3 (l9 a) = l9 (trans3 a) /\
  matrix_transpose_inplace 3 (l9 a) = Ok (l9 (trans3 a)).
Proof. exact transpose_proof. Qed.
Print Assumptions transpose_correct.

(** Outside C34: the in-place transpose has the dimension 3 built in. *)
Theorem transpose_inplace_refuted :
  matrix_transpose_inplace 2 [1;2;3;4] = Ok [1;4;3;2] /\ array_transpose 2 2 [1;2;3;4] = [1;3;2;4].
Proof. exact transpose_inplace_refuted_proof. Qed.
Print Assumptions transpose_inplace_refuted.

Example matrix_ex :
  det3 (M3 1 2 0 0 1 0 3 0 (-1)) = -1 /\
  matrix_inverse (l9 (M3 1 2 0 0 1 0 3 0 (-1))) 3 = Some [1; -2; 0; 0; 1; 0; 3; -6; -1].
Proof. split; reflexivity. Qed.

(** * C24: motions *)
Theorem motion_group : forall D, 0 < D ->
  (forall a b c, motion_mul D a (motion_mul D b c) = motion_mul D (motion_mul D a b) c) /\
  (forall a, same_motion D (motion_mul D motion_id a) a /\ same_motion D (motion_mul D a motion_id) a) /\
  (forall a, unimodular (rotp a) ->
     motion_mul D a (motion_inv D a) = motion_id /\ motion_mul D (motion_inv D a) a = motion_id) /\
  (forall a b p, same_place D (image (motion_mul D a b) p) (image a (image b p))) /\
  (forall a p, move_point a p = image a p) /\
  (forall a b, reduced D (motion_mul D a b)).
Proof. exact motion_group_proof. Qed.
Print Assumptions motion_group.

Theorem motion_equality : forall D, 0 < D ->
  (forall a b, motion_eqb D a b = true <-> same_motion D a b) /\
  (forall a, motion_eqb D a a = true) /\
  (forall a b, motion_eqb D a b = motion_eqb D b a) /\
  (forall a b c, motion_eqb D a b = true -> motion_eqb D b c = true -> motion_eqb D a c = true) /\
  (forall a b a' b', motion_eqb D a a' = true -> motion_eqb D b b' = true ->
     motion_eqb D (motion_mul D a b) (motion_mul D a' b') = true).
Proof. exact motion_equality_proof. Qed.
Print Assumptions motion_equality.

Theorem vector_action : forall a b v,
  move_vector a v = act3 (rotp a) v /\
  move_vector a (move_vector b v) = act3 (mul3 (rotp a) (rotp b)) v.
Proof. exact vector_action_proof. Qed.
Print Assumptions vector_action.

Theorem axial_cross : forall a x y, mul3 (trans3 (rotp a)) (rotp a) = I3 ->
  (det3 (rotp a) = 1 \/ det3 (rotp a) = -1) ->
  move_axial a (cross3 x y) = cross3 (move_vector a x) (move_vector a y).
Proof. exact axial_cross_proof. Qed.
Print Assumptions axial_cross.

(** A fourfold screw axis in units of 1/4, and a hexagonal rotation. *)
Example motion_ex :
  let s := Mo (M3 0 (-1) 0 1 0 0 0 0 1) (V3 0 0 1) in
  unimodular (rotp s) /\ motion_mul 4 s (motion_inv 4 s) = motion_id /\
  motion_mul 4 s s = Mo (M3 (-1) 0 0 0 (-1) 0 0 0 1) (V3 0 0 2) /\
  mul3 (trans3 (rotp s)) (rotp s) = I3.
Proof. cbv zeta. split; [left; reflexivity|]. repeat split; reflexivity. Qed.

(** * C30: isometries *)
Theorem isometry_correct : forall a, finite_order a ->
  exists k, has_order (proper_part a) k /\ (k <= 6)%nat /\
    rotation_order (l9 a) = Z.of_nat k /\
    isometry_value (l9 a) = det3 a * Z.of_nat k.
Proof. exact isometry_correct_proof. Qed.
Print Assumptions isometry_correct.

Theorem reported_order : forall a, finite_order a ->
  (det3 a = 1 \/ (det3 a = -1 /\ Z.even (rotation_order (l9 a)) = true)) ->
  has_order a (Z.to_nat (rotation_order (l9 a))).
Proof. exact reported_order_proof. Qed.
Print Assumptions reported_order.

Theorem reported_order_refuted :
  exists a, finite_order a /\ has_order a 2 /\ rotation_order (l9 a) = 1.
Proof. exact reported_order_refuted_proof. Qed.
Print Assumptions reported_order_refuted.

Example isometry_ex :
  finite_order (M3 1 (-1) 0 1 0 0 0 0 1) /\ isometry_value (l9 (M3 1 (-1) 0 1 0 0 0 0 1)) = 6 /\
  finite_order (M3 0 1 0 (-1) 0 0 0 0 (-1)) /\ isometry_value (l9 (M3 0 1 0 (-1) 0 0 0 0 (-1))) = -4 /\
  det3 (M3 0 1 0 (-1) 0 0 0 0 (-1)) = -1.
Proof.
  repeat split; try reflexivity.
  - exists 6%nat. split; [lia|reflexivity].
  - exists 4%nat. split; [lia|reflexivity].
Qed.
