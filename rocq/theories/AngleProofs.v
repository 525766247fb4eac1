(** Cosines and sines of angles are what they should be. *)
From Coq Require Import Reals ZArith Lra Lia.
From Verif Require Import Base AngleModel AngleSpec.
Local Open Scope R_scope.

Lemma eqb_iff x y : eqb x y = true <-> x = y.
Proof. unfold eqb. destruct (Req_EM_T x y); intuition congruence. Qed.
Lemma ltb_iff x y : ltb x y = true <-> x < y.
Proof. unfold ltb. destruct (Rlt_dec x y); intuition congruence. Qed.
Lemma ltb_false x y : ltb x y = false <-> y <= x.
Proof. unfold ltb. destruct (Rlt_dec x y); split; intros; try congruence; lra. Qed.

Lemma nearest_pos x : 0 <= x -> (0 <= nearest x)%Z.
Proof.
  intros H. destruct (base_Int_part x) as [A B]. unfold nearest.
  assert (C : (0 <= Int_part x)%Z). { assert (D : (-1 < Int_part x)%Z) by (apply lt_IZR; lra). lia. }
  destruct (ltb _ _); [exact C|]. destruct (ltb _ _); [lia|]. destruct (Z.even _); lia.
Qed.
(** Quarter turns. *)
Lemma turns_cos x n : cos (x + 2 * IZR (Z.of_nat n) * PI) = cos x.
Proof. rewrite <- INR_IZR_INZ. apply cos_period. Qed.
Lemma turns_sin x n : sin (x + 2 * IZR (Z.of_nat n) * PI) = sin x.
Proof. rewrite <- INR_IZR_INZ. apply sin_period. Qed.
Lemma low_bits n b : (2 <= b)%nat -> Z.rem (n mod 2 ^ Z.of_nat b) 4 = (n mod 4)%Z.
Proof.
  intros B. assert (P : (0 < 2 ^ Z.of_nat b)%Z) by (apply Z.pow_pos_nonneg; lia).
  rewrite Z.rem_mod_nonneg; [|apply Z.mod_pos_bound; lia|lia].
  symmetry. apply Znumtheory.Zmod_div_mod; [lia|lia|].
  exists (2 ^ Z.of_nat (b - 2))%Z. replace 4%Z with (2 ^ 2)%Z by reflexivity. rewrite <- Z.pow_add_r by lia. f_equal. lia.
Qed.
Lemma quarter x (n : Z) : (0 <= n)%Z ->
  ((n mod 4)%Z = 0%Z /\ cos (x + IZR n * (PI / 2)) = cos x /\ sin (x + IZR n * (PI / 2)) = sin x) \/
  ((n mod 4)%Z = 1%Z /\ cos (x + IZR n * (PI / 2)) = - sin x /\ sin (x + IZR n * (PI / 2)) = cos x) \/
  ((n mod 4)%Z = 2%Z /\ cos (x + IZR n * (PI / 2)) = - cos x /\ sin (x + IZR n * (PI / 2)) = - sin x) \/
  ((n mod 4)%Z = 3%Z /\ cos (x + IZR n * (PI / 2)) = sin x /\ sin (x + IZR n * (PI / 2)) = - cos x).
Proof.
  intros N. pose proof (Z.div_mod n 4 ltac:(lia)) as D. pose proof (Z.mod_pos_bound n 4 ltac:(lia)) as B.
  assert (Q : (0 <= n / 4)%Z) by (apply Z.div_pos; lia).
  set (m := Z.to_nat (n / 4)). assert (M : (n / 4)%Z = Z.of_nat m) by (unfold m; lia). rewrite M in D.
  assert (E : x + IZR n * (PI / 2) = (x + IZR (n mod 4) * (PI / 2)) + 2 * IZR (Z.of_nat m) * PI).
  { rewrite D at 1. rewrite plus_IZR, mult_IZR. lra. }
  rewrite E, turns_cos, turns_sin. clear E D.
  assert (C : (n mod 4 = 0 \/ n mod 4 = 1 \/ n mod 4 = 2 \/ n mod 4 = 3)%Z) by lia.
  assert (S1 : forall y, cos (y + PI / 2) = - sin y) by (intros y; rewrite cos_plus, cos_PI2, sin_PI2; ring).
  assert (S2 : forall y, sin (y + PI / 2) = cos y) by (intros y; rewrite sin_plus, cos_PI2, sin_PI2; ring).
  destruct C as [C|[C|[C|C]]]; rewrite C; [left|right; left|right; right; left|right; right; right]; (split; [reflexivity|]).
  - replace (x + 0 * (PI / 2)) with x by ring. auto.
  - replace (x + 1 * (PI / 2)) with (x + PI / 2) by ring. auto.
  - replace (x + 2 * (PI / 2)) with (x + PI / 2 + PI / 2) by lra. rewrite !S1, !S2, ?S1. auto.
  - replace (x + 3 * (PI / 2)) with (x + PI / 2 + PI / 2 + PI / 2) by lra. rewrite !S1, !S2, ?S1, ?S2. split; [ring|reflexivity].
Qed.
(** Degrees. *)
Definition rad (d : R) : R := d * (PI / 180).
Lemma cos_abs x : cos (Rabs x * (PI / 180)) = cos (rad x).
Proof. unfold rad, Rabs. destruct (Rcase_abs x); [|reflexivity]. rewrite <- (cos_neg (x * _)). f_equal. ring. Qed.
Lemma split90 d : let n := nearest (Rabs d / 90) in (0 <= n)%Z /\ Rabs d * (PI / 180) = degree_to_radian (Rabs d - IZR n * 90) + IZR n * (PI / 2).
Proof.
  intros n. split.
  - apply nearest_pos. pose proof (Rabs_pos d). lra.
  - unfold degree_to_radian. field.
Qed.
Lemma cosd_ok b d : (2 <= b)%nat -> cosd b d = cos (rad d).
Proof.
  intros B. rewrite <- cos_abs. destruct (split90 d) as [N E]. rewrite E. unfold cosd, remquo. rewrite (low_bits _ _ B).
  destruct (quarter (degree_to_radian (Rabs d - IZR (nearest (Rabs d / 90)) * 90)) _ N) as [(M & C & _)|[(M & C & _)|[(M & C & _)|(M & C & _)]]]; rewrite C, M; cbv iota; [reflexivity| |reflexivity|f_equal; ring].
  rewrite Rplus_0_r. apply sin_neg.
Qed.
Lemma sind_pos_ok b d : (2 <= b)%nat -> 0 <= d -> sind_pos b d = sin (rad d).
Proof.
  intros B P. assert (A : sin (rad d) = sin (Rabs d * (PI / 180))) by (rewrite Rabs_right by lra; reflexivity).
  rewrite A. destruct (split90 d) as [N E]. rewrite E. unfold sind_pos, remquo. rewrite (low_bits _ _ B).
  destruct (quarter (degree_to_radian (Rabs d - IZR (nearest (Rabs d / 90)) * 90)) _ N) as [(M & _ & C)|[(M & _ & C)|[(M & _ & C)|(M & _ & C)]]]; rewrite C, M; cbv iota; [f_equal; ring|reflexivity| |reflexivity].
  rewrite Rmult_1_r. apply sin_neg.
Qed.
Lemma sind_ok b d : (2 <= b)%nat -> sind b d = sin (rad d).
Proof.
  intros B. unfold sind. destruct (ltb d 0) eqn:L.
  - apply ltb_iff in L. rewrite sind_pos_ok by (auto; lra). rewrite <- sin_neg. f_equal. unfold rad. ring.
  - apply ltb_false in L. now apply sind_pos_ok.
Qed.
(** The values that are tabulated. *)
Lemma s2 : sqrt 2 <> 0. Proof. intros E. pose proof (sqrt_lt_R0 2). lra. Qed.
Lemma half_sqrt2 : sqrt 2 / 2 = 1 / sqrt 2.
Proof. pose proof s2. apply (Rmult_eq_reg_r (sqrt 2)); [|assumption]. unfold Rdiv. rewrite Rmult_1_l, Rinv_l by assumption. replace (sqrt 2 * / 2 * sqrt 2) with (sqrt 2 * sqrt 2 * / 2) by ring. rewrite sqrt_def by lra. lra. Qed.
Lemma cos_and_sin_ok r : cos_and_sin r = (cos r, sin r).
Proof.
  unfold cos_and_sin.
  destruct (eqb 0 r) eqn:E0; [apply eqb_iff in E0; subst r; now rewrite cos_0, sin_0|].
  destruct (eqb (PI / 3) r) eqn:E1; [apply eqb_iff in E1; subst r; now rewrite cos_PI3, sin_PI3|].
  destruct (eqb (acos 0) r) eqn:E2; [apply eqb_iff in E2; subst r; rewrite acos_0, cos_PI2, sin_PI2; reflexivity|].
  destruct (eqb (2 * PI / 3) r) eqn:E3.
  - apply eqb_iff in E3; subst r. replace (2 * PI / 3) with (PI - PI / 3) by field. rewrite Rtrigo_facts.cos_pi_minus, sin_PI_x, cos_PI3, sin_PI3. reflexivity.
  - destruct (eqb PI r) eqn:E4; [apply eqb_iff in E4; subst r; now rewrite cos_PI, sin_PI|reflexivity].
Qed.
Lemma cos_and_sin_d_ok b d : (2 <= b)%nat -> cos_and_sin_d b d = (cos (rad d), sin (rad d)).
Proof.
  intros B. unfold cos_and_sin_d.
  destruct (eqb 0 d) eqn:E0; [apply eqb_iff in E0; subst d; unfold rad; rewrite Rmult_0_l, cos_0, sin_0; reflexivity|].
  destruct (eqb 30 d) eqn:E1; [apply eqb_iff in E1; subst d; replace (rad 30) with (PI / 6) by (unfold rad; field); rewrite cos_PI6, sin_PI6; reflexivity|].
  destruct (eqb 45 d) eqn:E2; [apply eqb_iff in E2; subst d; replace (rad 45) with (PI / 4) by (unfold rad; field); rewrite cos_PI4, sin_PI4, half_sqrt2; reflexivity|].
  destruct (eqb 60 d) eqn:E3; [apply eqb_iff in E3; subst d; replace (rad 60) with (PI / 3) by (unfold rad; field); rewrite cos_PI3, sin_PI3; reflexivity|].
  destruct (eqb 90 d) eqn:E4; [apply eqb_iff in E4; subst d; replace (rad 90) with (PI / 2) by (unfold rad; field); rewrite cos_PI2, sin_PI2; reflexivity|].
  destruct (eqb 120 d) eqn:E5; [apply eqb_iff in E5; subst d; replace (rad 120) with (PI - PI / 3) by (unfold rad; field); rewrite Rtrigo_facts.cos_pi_minus, sin_PI_x, cos_PI3, sin_PI3; reflexivity|].
  destruct (eqb 135 d) eqn:E6; [apply eqb_iff in E6; subst d; replace (rad 135) with (PI - PI / 4) by (unfold rad; field); rewrite Rtrigo_facts.cos_pi_minus, sin_PI_x, cos_PI4, sin_PI4, half_sqrt2; reflexivity|].
  destruct (eqb 150 d) eqn:E7; [apply eqb_iff in E7; subst d; replace (rad 150) with (PI - PI / 6) by (unfold rad; field); rewrite Rtrigo_facts.cos_pi_minus, sin_PI_x, cos_PI6, sin_PI6; reflexivity|].
  destruct (eqb 180 d) eqn:E8; [apply eqb_iff in E8; subst d; replace (rad 180) with PI by (unfold rad; field); now rewrite cos_PI, sin_PI|].
  now rewrite cosd_ok, sind_ok.
Qed.

(** The unit that is taken. *)
Lemma angles_proof : forall bits a u, (2 <= bits)%nat -> u <> NotProvided -> exists c s, to_cosines_sines bits a u = Ok (c, s) /\ cosines_sines u a c s.
Proof.
  intros bits a u B U. unfold to_cosines_sines, map_r3. destruct u; [congruence| | |]; cbn [bind]; eexists; eexists; (split; [reflexivity|]); unfold cosines_sines; cbn [rx ry rz in_radians fst snd].
  - rewrite !cos_and_sin_ok. repeat split.
  - rewrite !cos_and_sin_d_ok by assumption. repeat split.
  - rewrite !cos_and_sin_ok, !(Rmult_comm PI). repeat split.
Qed.
Lemma angles_guess_proof : forall bits a, to_cosines_sines bits a NotProvided =
  if ltb (Rmin (rx a) (Rmin (ry a) (rz a))) 0 then Throw else to_cosines_sines bits a (if ltb (Rmax (rx a) (Rmax (ry a) (rz a))) PI then Radian else Degree).
Proof. intros bits a. unfold to_cosines_sines. destruct (ltb (Rmin _ _) 0); [reflexivity|]. destruct (ltb (Rmax _ _) PI); reflexivity. Qed.
Lemma angles_default_proof : forall bits a, (2 <= bits)%nat ->
  ((rx a < 0 \/ ry a < 0 \/ rz a < 0) -> to_cosines_sines bits a NotProvided = Throw) /\
  (0 <= rx a < PI -> 0 <= ry a < PI -> 0 <= rz a < PI -> exists c s, to_cosines_sines bits a NotProvided = Ok (c, s) /\ cosines_sines Radian a c s) /\
  (0 <= rx a -> 0 <= ry a -> 0 <= rz a -> PI <= rx a \/ PI <= ry a \/ PI <= rz a -> exists c s, to_cosines_sines bits a NotProvided = Ok (c, s) /\ cosines_sines Degree a c s).
Proof.
  intros bits [x y z] B. rewrite angles_guess_proof. cbn [rx ry rz].
  assert (Mn : forall r s, Rmin r s < 0 <-> r < 0 \/ s < 0) by (intros r s; unfold Rmin; destruct (Rle_dec r s); lra).
  assert (Mx : forall r s, Rmax r s < PI <-> r < PI /\ s < PI) by (intros r s; unfold Rmax; destruct (Rle_dec r s); lra).
  split; [|split].
  - intros H. replace (ltb _ 0) with true; [reflexivity|]. symmetry. apply ltb_iff. apply Mn. rewrite Mn. tauto.
  - intros X Y Z. destruct (ltb _ 0) eqn:L; [apply ltb_iff, Mn in L; rewrite Mn in L; lra|].
    destruct (ltb _ PI) eqn:M; [|apply ltb_false in M; assert (K : Rmax x (Rmax y z) < PI) by (apply Mx; rewrite Mx; lra); lra].
    now apply angles_proof.
  - intros X Y Z P. destruct (ltb _ 0) eqn:L; [apply ltb_iff, Mn in L; rewrite Mn in L; lra|].
    destruct (ltb _ PI) eqn:M; [apply ltb_iff, Mx in M; rewrite Mx in M; lra|].
    now apply angles_proof.
Qed.
