(** Proofs about the adjoint and determinant of one- and two-dimensional matrices (C34). *)
From Verif Require Import Base MatModel.
Local Open Scope Z_scope.

Lemma adjoint_one_proof a : matrix_determinant [a] 1 = a /\
  multiply_matrix_matrix 1 [a] (matrix_adjoint [a] 1) = [matrix_determinant [a] 1].
Proof.
  unfold multiply_matrix_matrix, multiply_arrays, mul_iloop, mul_jloop, mul_kloop, matrix_adjoint, matrix_determinant, zat.
  cbn [seq fold_left nth upd Nat.eqb repeat Nat.mul Nat.add]. split; [reflexivity|]. f_equal. ring.
Qed.
Local Opaque Z.mul Z.add.
Lemma adjoint_two_proof a b c d : matrix_determinant [a; b; c; d] 2 = a * d - b * c /\
  let m := matrix_determinant [a; b; c; d] 2 in
  multiply_matrix_matrix 2 [a; b; c; d] (matrix_adjoint [a; b; c; d] 2) = [m; 0; 0; m] /\
  multiply_matrix_matrix 2 (matrix_adjoint [a; b; c; d] 2) [a; b; c; d] = [m; 0; 0; m].
Proof.
  assert (D : matrix_determinant [a; b; c; d] 2 = a * d - b * c).
  { unfold matrix_determinant, matrix_cofactor, array_cofactor, zat. cbn. ring. }
  assert (A : matrix_adjoint [a; b; c; d] 2 = [d; - b; - c; a]).
  { unfold matrix_adjoint, matrix_determinant, matrix_cofactor, array_cofactor, zat. cbn.
    repeat (apply f_equal2; [ring|]); reflexivity. }
  split; [exact D|]. cbv zeta. rewrite D, A.
  unfold multiply_matrix_matrix, multiply_arrays, mul_iloop, mul_jloop, mul_kloop, zat.
  cbn [seq fold_left nth upd repeat Nat.mul Nat.add].
  split; repeat (apply f_equal2; [ring|]); reflexivity.
Qed.
