(** The rotation to the standard orientation. *)
From Coq Require Import Reals ZArith Lra Lia.
From Verif Require Import Base PrimitiveModel AngleModel LatticeModel LatticeSpec OrientModel OrientSpec OrientProofs ReassembleProofs SnapWitnessProofs.
Local Open Scope R_scope.

Theorem orientation_rotation : forall bv, rotation (standard_orientation bv).
Proof. exact rotation_proof. Qed.
Print Assumptions orientation_rotation.
(** The full statement is [forall bv, triple bv <> 0 -> standard (standard_orientation bv) bv]; it is false. *)
Theorem orientation_up_partial : forall bv, 0 < e20 bv ->
  e00 bv * (e10 bv * e11 bv + e20 bv * e21 bv) <> (e10 bv * e10 bv + e20 bv * e20 bv) * e01 bv \/ e10 bv * e21 bv < e20 bv * e11 bv ->
  standard (standard_orientation bv) bv.
Proof. exact standard_up_proof. Qed.
Print Assumptions orientation_up_partial.
Theorem orientation_flat_partial : forall bv, 0 < e00 bv -> e10 bv = 0 -> e20 bv = 0 -> e21 bv <> 0 \/ 0 < e11 bv -> standard (standard_orientation bv) bv.
Proof. exact standard_flat_proof. Qed.
Print Assumptions orientation_flat_partial.
Example oblique_up : let m := Mat 1 2 0 2 (-1) 0 3 1 1 in standard (standard_orientation m) m.
Proof. apply orientation_up_partial; cbn [e00 e01 e02 e10 e11 e12 e20 e21 e22]; lra. Qed.
Example oblique_flat : let m := Mat 3 3 1 0 4 2 0 0 2 in standard (standard_orientation m) m.
Proof. apply orientation_flat_partial; cbn [e00 e01 e02 e10 e11 e12 e20 e21 e22]; lra. Qed.
Theorem orientation_refuted : exists bv, 0 < triple bv /\ ~ standard (standard_orientation bv) bv.
Proof. exact not_standard_proof. Qed.
Print Assumptions orientation_refuted.

Theorem reassembled_vectors : forall old v c s, standard (standard_orientation old) old -> 0 < rx v -> 0 < ry v -> 0 < rz v -> sines_of c s -> (exists m, triple m <> 0 /\ has_parameters m v c) ->
  exists new, reassemble old v c s = Ok new /\ has_parameters new v c /\ 0 < triple new /\ along (va new) (va old) /\ same_side new old.
Proof. exact reassemble_proof. Qed.
Print Assumptions reassembled_vectors.
Theorem reassembled_same : forall old v c s, standard (standard_orientation old) old -> 0 < triple old -> has_parameters old v c -> sines_of c s -> reassemble old v c s = Ok old.
Proof. exact unchanged_proof. Qed.
Print Assumptions reassembled_same.
Example oblique_reassembled : let m := Mat 3 3 1 0 4 2 0 0 2 in reassemble m (R3 3 5 3) (R3 (11/15) (1/3) (3/5)) (R3 (sqrt (104/225)) (sqrt (8/9)) (4/5)) = Ok m.
Proof.
  apply reassembled_same; [exact oblique_flat|unfold triple, dot, cross, va, vb, vc; cbn [rx ry rz e00 e01 e02 e10 e11 e12 e20 e21 e22]; lra| |].
  - unfold has_parameters, dot, va, vb, vc; cbn [rx ry rz e00 e01 e02 e10 e11 e12 e20 e21 e22]; repeat split; lra.
  - unfold sines_of; cbn [rx ry rz]. rewrite !sqrt_sqrt by lra. repeat split; try lra; apply sqrt_lt_R0; lra.
Qed.
