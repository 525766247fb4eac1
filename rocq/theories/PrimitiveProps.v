(** Theorems about the conversion between cells (C35). *)
From Coq Require Import QArith.
From Verif Require Import Base PrimitiveModel PrimitiveSpec PrimitiveProofs.
Local Open Scope Z_scope.

Theorem to_primitive_and_back : forall b u v, b <> B_none -> u <> OtherUnit ->
  exists w x, q_to b u v = Ok w /\ q_from b u w = Ok x /\ same_vec x v.
Proof. exact round_trip_proof. Qed.
Print Assumptions to_primitive_and_back.
Theorem from_primitive_and_back : forall b u v, b <> B_none -> u <> OtherUnit ->
  exists w x, q_from b u v = Ok w /\ q_to b u w = Ok x /\ same_vec x v.
Proof. exact round_trip_back_proof. Qed.
Print Assumptions from_primitive_and_back.
Example to_primitive_example : exists w, q_to B_I InverseAngstrom (1, 0, 0)%Q = Ok w /\ same_vec w (- (1 # 2), 1 # 2, 1 # 2)%Q.
Proof. eexists. split; [reflexivity|]. repeat split. Qed.

Theorem primitive_scalar_product : forall b x q, b <> B_none ->
  exists xp qp, q_to b Angstrom x = Ok xp /\ q_to b InverseAngstrom q = Ok qp /\ (dot xp qp == dot x q)%Q.
Proof. exact dot_proof. Qed.
Print Assumptions primitive_scalar_product.
Example scalar_product_example : exists xp, q_to B_R Angstrom (2, 1, 1)%Q = Ok xp /\ same_vec xp (3, 0, 0)%Q.
Proof. eexists. split; [reflexivity|]. repeat split. Qed.

(** The converted components with the primitive basis vectors name the same point of space. *)
Theorem primitive_same_position : forall b real recip x q, b <> B_none -> length real = 9%nat -> length recip = 9%nat ->
  exists real' recip' xp qp, primitive_vectors b real recip = Ok (real', recip') /\
    q_to b Angstrom x = Ok xp /\ q_to b InverseAngstrom q = Ok qp /\
    same_vec (position real' xp) (position real x) /\ same_vec (position recip' qp) (position recip q).
Proof. exact position_proof. Qed.
Print Assumptions primitive_same_position.
Example same_position_example : same_vec (position [1; 0; 0; 0; 2; 0; 0; 0; 3]%Q (1, 1, 1)%Q) (1, 2, 3)%Q.
Proof. repeat split. Qed.

(** Vectors of integers. *)
Theorem integer_real_round_trip : forall b v, b <> B_none -> exists w, z_to b Angstrom v = Ok w /\ z_from b Angstrom w = Ok v.
Proof. exact int_real_proof. Qed.
Print Assumptions integer_real_round_trip.
Theorem integer_reciprocal_round_trip : forall b v, b <> B_none ->
  exists w, z_from b InverseAngstrom v = Ok w /\ z_to b InverseAngstrom w = Ok v.
Proof. exact int_recip_proof. Qed.
Print Assumptions integer_reciprocal_round_trip.
Example integer_example : z_to B_F Angstrom (1, 2, 3) = Ok (4, 2, 0) /\ z_from B_F Angstrom (4, 2, 0) = Ok (1, 2, 3).
Proof. split; reflexivity. Qed.
(** The other ways are truncated. *)
Theorem integer_round_trip_refuted :
  (exists b v w x, b <> B_none /\ z_to b InverseAngstrom v = Ok w /\ z_from b InverseAngstrom w = Ok x /\ x <> v) /\
  (exists b v w x, b <> B_none /\ z_from b Angstrom v = Ok w /\ z_to b Angstrom w = Ok x /\ x <> v).
Proof.
  split; exists B_I, (1, 0, 0), (0, 0, 0), (0, 0, 0); (split; [discriminate|]; split; [reflexivity|]; split; [reflexivity|discriminate]).
Qed.
Print Assumptions integer_round_trip_refuted.
