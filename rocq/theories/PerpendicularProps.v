(** C135: the vectors perpendicular to the axis of an operation. *)
From Coq Require Import QArith.
From Verif Require Import Base Array2Model MatSpec IsometrySpec QPoint CutSpec ZoneSpec ApplySpec CuttingModel CuttingSpec PerpendicularModel PerpendicularSpec PerpendicularProofs.
Local Open Scope Z_scope.

Theorem perpendicular_vectors : forall r, axis r <> V3 0 0 0 ->
  exists x y, axis_and_perpendicular r = Ok (axis r, x, y) /\ shortest (across (axis r)) x /\ shortest (fun w => across (axis r) w /\ zcross x w <> V3 0 0 0) y.
Proof. exact perpendicular_vectors_proof. Qed.
Print Assumptions perpendicular_vectors.

Theorem no_perpendicular : forall r, axis r = V3 0 0 0 -> axis_and_perpendicular r = Ok (V3 0 0 0, V3 0 0 0, V3 0 0 0).
Proof. exact no_perpendicular_proof. Qed.
Print Assumptions no_perpendicular.

Example perpendicular_case : axis_and_perpendicular (M3 0 0 1 1 0 0 0 1 0) = Ok (V3 1 1 1, V3 0 1 (-1), V3 (-1) 0 1) /\ axis I3 = V3 0 0 0.
Proof. split; vm_compute; reflexivity. Qed.

Theorem perpendicular_direct_refuted : exists b r a x y da dx, independent b /\ small_matrix r /\ keeps_lengths b r /\ is_two_fold r /\
  axis_and_perpendicular r = Ok (a, x, y) /\ direct b a da /\ direct b x dx /\ ~ (dot da dx == 0)%Q.
Proof. exact perpendicular_direct_refuted_proof. Qed.
Print Assumptions perpendicular_direct_refuted.
