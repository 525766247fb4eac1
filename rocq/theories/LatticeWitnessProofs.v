(** Angles of 90 and 120 degrees and a singular matrix. *)
From Coq Require Import Reals ZArith Lra Lia.
From Verif Require Import Base PrimitiveModel AngleModel AngleSpec AngleProofs LatticeModel LatticeSpec LatticeDualProofs LatticeVectorProofs.
Local Open Scope R_scope.

Lemma cos_120 : cos (120 * (PI / 180)) = -1/2 /\ sin (120 * (PI / 180)) = sqrt 3 / 2.
Proof.
  replace (120 * (PI / 180)) with (2 * (PI / 3)) by field. rewrite cos_2a, sin_2a, cos_PI3, sin_PI3. pose proof (sqrt_sqrt 3 ltac:(lra)). split; [|lra].
  replace (sqrt 3 / 2 * (sqrt 3 / 2)) with (sqrt 3 * sqrt 3 / 4) by field. lra.
Qed.
Lemma cos_90 : cos (90 * (PI / 180)) = 0.
Proof. replace (90 * (PI / 180)) with (PI / 2) by field. apply cos_PI2. Qed.
Lemma hexagonal_cosines bits : (2 <= bits)%nat -> exists c s, to_cosines_sines bits (R3 90 90 120) Degree = Ok (c, s) /\ c = R3 0 0 (-1/2).
Proof.
  intros B. destruct (angles_proof bits (R3 90 90 120) Degree B ltac:(discriminate)) as (c & s & E & C1 & C2 & C3 & _). exists c, s. split; [exact E|].
  cbn [rx ry rz in_radians] in *. apply r3_eq; [rewrite C1|rewrite C2|rewrite C3]; cbn [rx ry rz]; (apply cos_90 || apply cos_120).
Qed.
Lemma plane_of_120 bits : (2 <= bits)%nat -> exists c s, to_cosines_sines bits (R3 120 120 120) Degree = Ok (c, s) /\ sines_of c s /\ ~ (exists m, triple m <> 0 /\ has_parameters m (R3 1 1 1) c).
Proof.
  intros B. destruct (angles_proof bits (R3 120 120 120) Degree B ltac:(discriminate)) as (c & s & E & C1 & C2 & C3 & S1 & S2 & S3). exists c, s. split; [exact E|].
  cbn [rx ry rz in_radians] in *. destruct cos_120 as [K L]. rewrite K in *. rewrite L in *. pose proof (sqrt_lt_R0 3 ltac:(lra)). pose proof (sqrt_sqrt 3 ltac:(lra)).
  assert (S : sines_of c s) by (unfold sines_of; rewrite C1, C2, C3, S1, S2, S3; repeat split; lra). split; [exact S|].
  rewrite (physical (R3 1 1 1) c s ltac:(cbn [rx]; lra) ltac:(cbn [ry]; lra) ltac:(cbn [rz]; lra) S). unfold squared. rewrite C1, C2, C3. lra.
Qed.
Lemma singular_proof : exists m real recip, triple m = 0 /\ set_matrix m Angstrom = Ok (real, recip) /\ ~ dual_to real recip.
Proof.
  exists (Mat 1 0 1 0 1 1 0 0 0). eexists; eexists. assert (T : triple (Mat 1 0 1 0 1 1 0 0 0) = 0) by (unfold triple, dot, cross, va, vb, vc; cbn [rx ry rz e00 e01 e02 e10 e11 e12 e20 e21 e22]; lra).
  split; [exact T|]. split; [exact (set_singular_proof _ T)|]. unfold dual_to, dot, va, vb, vc; cbn [rx ry rz e00 e01 e02 e10 e11 e12 e20 e21 e22]. intros (H & _). pose proof PI_RGT_0. lra.
Qed.
