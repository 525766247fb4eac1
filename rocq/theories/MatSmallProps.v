(** The adjoint of one- and two-dimensional matrices (C34). *)
From Verif Require Import Base MatModel MatSmallProofs.
Local Open Scope Z_scope.

Theorem adjoint_one : forall a, matrix_determinant [a] 1 = a /\
  multiply_matrix_matrix 1 [a] (matrix_adjoint [a] 1) = [matrix_determinant [a] 1].
Proof. exact adjoint_one_proof. Qed.
Print Assumptions adjoint_one.

Theorem adjoint_two : forall a b c d, matrix_determinant [a; b; c; d] 2 = a * d - b * c /\
  let m := matrix_determinant [a; b; c; d] 2 in
  multiply_matrix_matrix 2 [a; b; c; d] (matrix_adjoint [a; b; c; d] 2) = [m; 0; 0; m] /\
  multiply_matrix_matrix 2 (matrix_adjoint [a; b; c; d] 2) [a; b; c; d] = [m; 0; 0; m].
Proof. exact adjoint_two_proof. Qed.
Print Assumptions adjoint_two.
Example adjoint_ex : matrix_adjoint [1; 2; 3; 4] 2 = [4; -2; -3; 1] /\ matrix_inverse [-1] 1 = Some [-1].
Proof. split; reflexivity. Qed.
