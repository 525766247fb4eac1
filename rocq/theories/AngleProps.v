(** Cosines and sines of the angles of a lattice. *)
From Coq Require Import Reals ZArith Lra Lia.
From Verif Require Import Base AngleModel AngleSpec AngleProofs.
Local Open Scope R_scope.

Theorem cosines_and_sines : forall bits a u, (2 <= bits)%nat -> u <> NotProvided -> exists c s, to_cosines_sines bits a u = Ok (c, s) /\ cosines_sines u a c s.
Proof. exact angles_proof. Qed.
Print Assumptions cosines_and_sines.
Example right_angle_in_degrees : exists c s, to_cosines_sines 3 (R3 90 90 180) Degree = Ok (c, s) /\ rx c = 0 /\ rz c = -1.
Proof.
  destruct (cosines_and_sines 3 (R3 90 90 180) Degree ltac:(lia) ltac:(discriminate)) as (c & s & E & H & _ & K & _). exists c, s. split; [exact E|].
  rewrite H, K. cbn [rx rz in_radians]. replace (90 * (PI / 180)) with (PI / 2) by field. replace (180 * (PI / 180)) with PI by field. split; [apply cos_PI2|apply cos_PI].
Qed.

Theorem angle_unit_guessed : forall bits a, (2 <= bits)%nat ->
  ((rx a < 0 \/ ry a < 0 \/ rz a < 0) -> to_cosines_sines bits a NotProvided = Throw) /\
  (0 <= rx a < PI -> 0 <= ry a < PI -> 0 <= rz a < PI -> exists c s, to_cosines_sines bits a NotProvided = Ok (c, s) /\ cosines_sines Radian a c s) /\
  (0 <= rx a -> 0 <= ry a -> 0 <= rz a -> PI <= rx a \/ PI <= ry a \/ PI <= rz a -> exists c s, to_cosines_sines bits a NotProvided = Ok (c, s) /\ cosines_sines Degree a c s).
Proof. exact angles_default_proof. Qed.
Print Assumptions angle_unit_guessed.
Example ninety_is_degrees : exists c s, to_cosines_sines 3 (R3 90 90 120) NotProvided = Ok (c, s) /\ cosines_sines Degree (R3 90 90 120) c s.
Proof. pose proof PI_4. apply (angle_unit_guessed 3 (R3 90 90 120) ltac:(lia)); cbn [rx ry rz]; lra. Qed.
