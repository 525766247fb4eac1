(** Dual lattice parameters are those of the dual basis. *)
From Coq Require Import Reals Lra Lia.
From Verif Require Import Base AngleModel AngleSpec AngleProofs LatticeModel LatticeSpec.
Local Open Scope R_scope.

Lemma rdiv_ok a b : b <> 0 -> rdiv a b = Ok (a / b).
Proof. intros H. unfold rdiv, eqb. destruct (Req_EM_T b 0); congruence. Qed.
Lemma rsqrt_ok a : 0 <= a -> rsqrt a = Ok (sqrt a).
Proof. intros H. unfold rsqrt. replace (ltb a 0) with false; [reflexivity|]. symmetry. now apply ltb_false. Qed.
Lemma two_pi : 0 < 2 * PI.
Proof. pose proof PI_RGT_0. lra. Qed.

(** Dual vectors as cross products. *)
Definition scale (k : R) (x : r3) : r3 := R3 (k * rx x) (k * ry x) (k * rz x).
Lemma solve m x : scale (triple m) x = R3
  (dot (va m) x * rx (cross (vb m) (vc m)) + dot (vb m) x * rx (cross (vc m) (va m)) + dot (vc m) x * rx (cross (va m) (vb m)))
  (dot (va m) x * ry (cross (vb m) (vc m)) + dot (vb m) x * ry (cross (vc m) (va m)) + dot (vc m) x * ry (cross (va m) (vb m)))
  (dot (va m) x * rz (cross (vb m) (vc m)) + dot (vb m) x * rz (cross (vc m) (va m)) + dot (vc m) x * rz (cross (va m) (vb m))).
Proof. unfold scale, triple, dot, cross, va, vb, vc; cbn [rx ry rz]. f_equal; ring. Qed.
Lemma triple_dual m m' : dual_to m m' -> triple m * triple m' = 2 * PI * (2 * PI) * (2 * PI).
Proof.
  intros (A & B & C & D & E & F & G & H & K).
  assert (I : triple m * triple m' = dot (va m) (va m') * (dot (vb m) (vb m') * dot (vc m) (vc m') - dot (vb m) (vc m') * dot (vc m) (vb m'))
    - dot (va m) (vb m') * (dot (vb m) (va m') * dot (vc m) (vc m') - dot (vb m) (vc m') * dot (vc m) (va m'))
    + dot (va m) (vc m') * (dot (vb m) (va m') * dot (vc m) (vb m') - dot (vb m) (vb m') * dot (vc m) (va m'))).
  { unfold triple, dot, cross, va, vb, vc; cbn [rx ry rz]. ring. }
  rewrite I, A, B, C, D, E, F, G, H, K. ring.
Qed.
Lemma triple_nz m m' : dual_to m m' -> triple m <> 0.
Proof. intros D E. pose proof (triple_dual _ _ D) as T. rewrite E, Rmult_0_l in T. pose proof two_pi. symmetry in T. apply Rmult_integral in T. destruct T as [T|T]; [apply Rmult_integral in T|]; lra. Qed.
Lemma dual_sym m m' : dual_to m m' -> dual_to m' m.
Proof.
  intros (A & B & C & D & E & F & G & H & K). unfold dual_to, dot in *. repeat split; try (rewrite <- A); try lra.
Qed.
Lemma r3_eq x y : rx x = rx y -> ry x = ry y -> rz x = rz y -> x = y.
Proof. destruct x, y; cbn; congruence. Qed.
Lemma unscale k x y : k <> 0 -> scale k x = y -> x = scale (/ k) y.
Proof. intros N <-. apply r3_eq; cbn; rewrite <- Rmult_assoc, Rinv_l, Rmult_1_l by assumption; reflexivity. Qed.
Lemma dual_vectors m m' : dual_to m m' -> let k := / triple m * (2 * PI) in
  va m' = scale k (cross (vb m) (vc m)) /\ vb m' = scale k (cross (vc m) (va m)) /\ vc m' = scale k (cross (va m) (vb m)).
Proof.
  intros Du k. pose proof (triple_nz _ _ Du) as N. destruct Du as (A & B & C & D & E & F & G & H & K).
  split; [|split].
  - rewrite (unscale _ _ _ N (solve m (va m'))), A, D, G. apply r3_eq; unfold k; cbn [scale rx ry rz]; ring.
  - rewrite (unscale _ _ _ N (solve m (vb m'))), B, E, H. apply r3_eq; unfold k; cbn [scale rx ry rz]; ring.
  - rewrite (unscale _ _ _ N (solve m (vc m'))), C, F, K. apply r3_eq; unfold k; cbn [scale rx ry rz]; ring.
Qed.
(** The volume from lengths and cosines. *)
Definition squared (c : r3) : R := 1 - (0 + rx c * rx c + ry c * ry c + rz c * rz c) + 2 * rx c * ry c * rz c.
Lemma gram m : triple m * triple m = dot (va m) (va m) * (dot (vb m) (vb m) * dot (vc m) (vc m) - dot (vb m) (vc m) * dot (vb m) (vc m))
  - dot (va m) (vb m) * (dot (va m) (vb m) * dot (vc m) (vc m) - dot (vb m) (vc m) * dot (vc m) (va m))
  + dot (vc m) (va m) * (dot (va m) (vb m) * dot (vb m) (vc m) - dot (vb m) (vb m) * dot (vc m) (va m)).
Proof. unfold triple, dot, cross, va, vb, vc; cbn [rx ry rz]. ring. Qed.
Lemma triple_squared m l c : has_parameters m l c -> triple m * triple m = (rx l * ry l * rz l) * (rx l * ry l * rz l) * squared c.
Proof. intros (_ & _ & _ & A & B & C & D & E & F). rewrite gram, A, B, C, D, E, F. unfold squared. ring. Qed.
Lemma squared_pos m l c : has_parameters m l c -> triple m <> 0 -> 0 < squared c.
Proof.
  intros P N. pose proof (triple_squared _ _ _ P) as T. destruct P as (X & Y & Z & _).
  assert (L : 0 < rx l * ry l * rz l) by (repeat apply Rmult_lt_0_compat; assumption).
  set (k := rx l * ry l * rz l) in *. assert (K : 0 < k * k) by (apply Rmult_lt_0_compat; assumption).
  assert (Q : 0 < triple m * triple m) by (pose proof (Rsqr_pos_lt _ N) as Q; exact Q).
  rewrite T in Q. apply Rmult_lt_reg_l with (k * k); [assumption|lra].
Qed.
Lemma unit_volume_ok c : 0 < squared c -> unit_volume c = Ok (sqrt (squared c)).
Proof. intros H. unfold unit_volume. fold (squared c). rewrite (proj2 (ltb_iff _ _) H). apply rsqrt_ok. lra. Qed.
Lemma unit_volume_throw c : squared c <= 0 -> unit_volume c = Throw.
Proof. intros H. unfold unit_volume. fold (squared c). now rewrite (proj2 (ltb_false _ _) H). Qed.
(** One step. *)
Lemma dual_one_ok V l ci si cj ck sj sk : 0 < V -> 0 < l -> 0 < si -> 0 < sj -> 0 < sk -> sj * sj + cj * cj = 1 -> sk * sk + ck * ck = 1 ->
  0 < 1 - (ci * ci + cj * cj + ck * ck) + 2 * ci * cj * ck ->
  exists s', dual_one V l ci si cj ck sj sk = Ok (2 * PI * si / l / V, (cj * ck - ci) / (sj * sk), s') /\ 0 < s' /\ s' * s' + (cj * ck - ci) / (sj * sk) * ((cj * ck - ci) / (sj * sk)) = 1.
Proof.
  intros HV Hl Hi Hj Hk Ej Ek Q. unfold dual_one. rewrite (rdiv_ok _ l) by lra. cbn [bind]. rewrite rdiv_ok by lra. cbn [bind].
  assert (P : 0 < sj * sk) by (apply Rmult_lt_0_compat; assumption).
  rewrite rdiv_ok by lra. cbn [bind]. set (c := (cj * ck - ci) / (sj * sk)).
  assert (E : 1 - c * c = (1 - (ci * ci + cj * cj + ck * ck) + 2 * ci * cj * ck) / (sj * sk * (sj * sk))).
  { unfold c. apply Rmult_eq_reg_r with (sj * sk * (sj * sk)); [|apply Rgt_not_eq, Rmult_lt_0_compat; assumption].
    replace ((1 - (cj * ck - ci) / (sj * sk) * ((cj * ck - ci) / (sj * sk))) * (sj * sk * (sj * sk))) with (sj * sj * (sk * sk) - (cj * ck - ci) * (cj * ck - ci)) by (field; lra).
    replace ((1 - (ci * ci + cj * cj + ck * ck) + 2 * ci * cj * ck) / (sj * sk * (sj * sk)) * (sj * sk * (sj * sk))) with (1 - (ci * ci + cj * cj + ck * ck) + 2 * ci * cj * ck) by (field; lra).
    replace (sj * sj) with (1 - cj * cj) by lra. replace (sk * sk) with (1 - ck * ck) by lra. ring. }
  assert (Z : 0 < 1 - c * c) by (rewrite E; apply Rdiv_lt_0_compat; [assumption|apply Rmult_lt_0_compat; assumption]).
  rewrite rsqrt_ok by lra. cbn [bind]. exists (sqrt (1 - c * c)). split; [reflexivity|]. split; [now apply sqrt_lt_R0|].
  rewrite sqrt_sqrt by lra. lra.
Qed.

Lemma dual_parameters_proof : forall m m' l c s, has_parameters m l c -> sines_of c s -> dual_to m m' ->
  exists l' c' s', dual_parameters l c s = Ok (l', c', s') /\ has_parameters m' l' c' /\ sines_of c' s'.
Proof.
  intros m m' l c s P S D. pose proof (triple_nz _ _ D) as N. pose proof (squared_pos _ _ _ P N) as Q. pose proof (triple_squared _ _ _ P) as T.
  destruct (dual_vectors _ _ D) as (Da & Db & Dc). destruct S as (Sx & Sy & Sz & Ex & Ey & Ez).
  unfold dual_parameters. rewrite (unit_volume_ok _ Q). cbn [bind].
  pose proof (sqrt_lt_R0 _ Q) as V. pose proof (sqrt_sqrt _ (Rlt_le _ _ Q)) as VV. set (v := sqrt (squared c)) in *.
  destruct P as (X & Y & Z & A & B & C & F & G & H). unfold squared in Q.
  destruct (dual_one_ok v (rx l) (rx c) (rx s) (ry c) (rz c) (ry s) (rz s)) as (s0 & R0 & P0 & E0); try assumption; [lra|].
  destruct (dual_one_ok v (ry l) (ry c) (ry s) (rz c) (rx c) (rz s) (rx s)) as (s1 & R1 & P1 & E1); try assumption; [lra|].
  destruct (dual_one_ok v (rz l) (rz c) (rz s) (rx c) (ry c) (rx s) (ry s)) as (s2 & R2 & P2 & E2); try assumption; [lra|].
  rewrite R0. cbn [bind]. rewrite R1. cbn [bind]. rewrite R2. cbn [bind]. eexists; eexists; eexists. split; [reflexivity|].
  pose proof two_pi as TP.
  assert (Lp : forall s0 l0, 0 < s0 -> 0 < l0 -> 0 < 2 * PI * s0 / l0 / v) by (intros s' l' H1 H2; repeat apply Rdiv_lt_0_compat; try assumption; apply Rmult_lt_0_compat; assumption).
  assert (KK : forall x y, dot (scale (/ triple m * (2 * PI)) x) (scale (/ triple m * (2 * PI)) y) = 2 * PI * (2 * PI) * dot x y / (triple m * triple m)).
  { intros x y. unfold dot, scale; cbn [rx ry rz]. field. assumption. }
  assert (L1 : forall x y z w, dot (cross x y) (cross z w) = dot x z * dot y w - dot x w * dot y z) by (intros x y z w; unfold dot, cross; cbn [rx ry rz]; ring).
  assert (Cm : forall x y, dot x y = dot y x) by (intros x y; unfold dot; ring).
  split.
  - unfold has_parameters. cbn [rx ry rz]. split; [auto|]. split; [auto|]. split; [auto|].
    rewrite Da, Db, Dc, !KK, !L1, T, <- VV.
    repeat rewrite ?(Cm (vb m) (va m)), ?(Cm (vc m) (vb m)), ?(Cm (va m) (vc m)). rewrite A, B, C, F, G, H.
    repeat split.
    + replace (rx s * rx s) with (1 - rx c * rx c) by lra. apply Rmult_eq_reg_r with (rx l * rx l * (v * v)).
      * transitivity (2 * PI * (2 * PI) * (1 - rx c * rx c)); [field; lra|]. replace (1 - rx c * rx c) with (rx s * rx s) by lra. field. lra.
      * apply Rgt_not_eq. repeat apply Rmult_lt_0_compat; assumption.
    + apply Rmult_eq_reg_r with (ry l * ry l * (v * v)).
      * transitivity (2 * PI * (2 * PI) * (1 - ry c * ry c)); [field; lra|]. replace (1 - ry c * ry c) with (ry s * ry s) by lra. field. lra.
      * apply Rgt_not_eq. repeat apply Rmult_lt_0_compat; assumption.
    + apply Rmult_eq_reg_r with (rz l * rz l * (v * v)).
      * transitivity (2 * PI * (2 * PI) * (1 - rz c * rz c)); [field; lra|]. replace (1 - rz c * rz c) with (rz s * rz s) by lra. field. lra.
      * apply Rgt_not_eq. repeat apply Rmult_lt_0_compat; assumption.
    + field. lra.
    + field. lra.
    + field. lra.
  - unfold sines_of. cbn [rx ry rz]. repeat split; assumption.
Qed.
