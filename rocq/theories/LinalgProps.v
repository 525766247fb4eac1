(** C137: products and decomposition of flattened matrices. *)
From Coq Require Import ZArith QArith List.
From Verif Require Import Base Array2Model LinalgModel LinalgSpec LinalgProofs.
Import ListNotations.
Local Open Scope nat_scope.

Theorem dot_exact : forall a b, 0 < length a -> length a = length b -> dot_vectors a b = Ok (sum_below (length a) (fun k => nth k a 0 * nth k b 0)%Z).
Proof. exact dot_vectors_proof. Qed.
Print Assumptions dot_exact.

Theorem dot_unequal : forall a b, length a <> length b -> dot_vectors a b = Throw.
Proof. exact dot_unequal_proof. Qed.
Print Assumptions dot_unequal.
Example dot_unequal_case : length [1; 2]%Z <> length [3]%Z /\ dot_vectors [1; 2]%Z [3]%Z = Throw.
Proof. split; [discriminate|reflexivity]. Qed.

Theorem mat_vec_exact : forall A x n, 0 < n -> length x = n -> length A = n * n ->
  exists b, mul_mat_vec A x = Ok b /\ length b = n /\ forall i, i < n -> nth i b 0%Z = sum_below n (fun k => at_ij n A i k * nth k x 0)%Z.
Proof. exact mat_vec_proof. Qed.
Print Assumptions mat_vec_exact.

Theorem vec_mat_exact : forall x A, length x = 3 -> length A = 9 ->
  exists b, mul_vec_mat x A = Ok b /\ length b = 3 /\ forall j, j < 3 -> nth j b 0%Z = sum_below 3 (fun k => nth k x 0 * at_ij 3 A k j)%Z.
Proof. exact vec_mat_proof. Qed.
Print Assumptions vec_mat_exact.

Theorem mat_mat_exact : forall A B n, length A = n * n -> length B = n * n ->
  exists C, mul_mat_mat A B = Ok C /\ length C = n * n /\ forall i j, i < n -> j < n -> at_ij n C i j = sum_below n (fun k => at_ij n A i k * at_ij n B k j)%Z.
Proof. exact mat_mat_proof. Qed.
Print Assumptions mat_mat_exact.

Example products_case : let A := [1; 2; 0; 3; 1; 5; 0; 2; 7]%Z in
  mul_mat_vec A [1; 10; 100]%Z = Ok [21; 513; 720]%Z /\ mul_vec_mat [1; 10; 100]%Z A = Ok [31; 212; 750]%Z /\
  mul_mat_mat [1; 2; 3; 4]%Z [0; 1; 1; 5]%Z = Ok [2; 11; 4; 23]%Z /\ dot_vectors [1; 2]%Z [3; 4]%Z = Ok 11%Z.
Proof. repeat split; vm_compute; reflexivity. Qed.

Theorem lu_one : forall a, lu_decomposition [a] = Ok (negb (Qeq_bool (1 * a) 0), (1 * a)%Q, [a]).
Proof. exact lu_one_proof. Qed.
Print Assumptions lu_one.

Theorem lu_refuted : forall A n, 2 <= n -> length A = n * n -> lu_decomposition A = UB.
Proof. exact lu_undefined_proof. Qed.
Print Assumptions lu_refuted.

Example lu_case : length [2; 1; 1; 3]%Q = 2 * 2 /\ lu_decomposition [2; 1; 1; 3]%Q = UB.
Proof. split; reflexivity. Qed.
