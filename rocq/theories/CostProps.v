(** Theorems about the settings of an Interpolator (C48). *)
From Verif Require Import Base CostModel CostProofs.

(** The part that holds: the default vector cost function (any number but 1 to 4). *)
Theorem settings_round_trip_partial : forall D R L F (d : D) sh el (r : R) (l : L) csf cvf (wg : triple F) t,
  ~ (1 <= cvf <= 4)%Z -> construct D R L F d sh el r l csf cvf wg = Ok t -> from_hdf D R L F (to_hdf D R L F t) = Ok t.
Proof. exact settings_round_trip_partial_proof. Qed.
Print Assumptions settings_round_trip_partial.
Example settings_example : exists t, construct nat nat nat nat 5 [2; 3; 1; 3; 3] (0, 0, 0) 0 1 0 0 (1, 1, 1) = Ok t /\
  elements nat nat nat nat t = (0, 0, 9) /\ from_hdf nat nat nat nat (to_hdf nat nat nat nat t) = Ok t.
Proof. eexists. split; [reflexivity|]. split; reflexivity. Qed.

(** For the other vector cost functions, whatever the data, the loaded object uses another
    function and compares as different. *)
Theorem settings_round_trip_refuted : forall D R L F neD neR neL neF (d : D) sh el (r : R) (l : L) csf cvf (wg : triple F) t,
  (1 <= cvf <= 4)%Z -> construct D R L F d sh el r l csf cvf wg = Ok t ->
  exists u, from_hdf D R L F (to_hdf D R L F t) = Ok u /\ vectorfun D R L F u <> vectorfun D R L F t /\
    differs D R L F neD neR neL neF t u = true.
Proof. exact settings_round_trip_refuted_proof. Qed.
Print Assumptions settings_round_trip_refuted.
Example settings_refuted_example : exists t, construct nat nat nat nat 5 [2; 3] (1, 0, 0) 0 1 0 2 (1, 1, 1) = Ok t /\
  vectorfun nat nat nat nat t = VectorProduct.
Proof. eexists. split; reflexivity. Qed.

(** Two-dimensional data without columns: the remainder by zero is undefined. *)
Theorem empty_columns_refuted : forall D R L F (d : D) (r : R) (l : L) csf cvf (wg : triple F) n,
  construct D R L F d [n; 0] (0, 0, 0) r l csf cvf wg = UB.
Proof. exact empty_columns_refuted_proof. Qed.
Print Assumptions empty_columns_refuted.
