(** When the rotation to the standard orientation is one. *)
From Coq Require Import Reals Lra Lia Nsatz.
From Verif Require Import Base PrimitiveModel AngleModel AngleSpec AngleProofs LatticeModel LatticeSpec LatticeDualProofs LatticeVectorProofs OrientModel OrientSpec.
Local Open Scope R_scope.

(** Cosine and sine of the angle of a direction. *)
Lemma hyp_pos x y : (x <> 0 \/ y <> 0) -> 0 < x * x + y * y.
Proof. intros [H|H]; [assert (0 < x * x) by (pose proof (Rsqr_pos_lt _ H) as Q; exact Q)|assert (0 < y * y) by (pose proof (Rsqr_pos_lt _ H) as Q; exact Q)]; nra. Qed.
Lemma atan_at y x : 0 < x -> let h := sqrt (x * x + y * y) in cos (atan (y / x)) = x / h /\ sin (atan (y / x)) = y / h.
Proof.
  intros X h. assert (P : 0 < x * x + y * y) by (apply hyp_pos; lra). pose proof (sqrt_lt_R0 _ P) as H. fold h in H.
  assert (E : sqrt (1 + (y / x)²) = h / x).
  { replace (1 + (y / x)²) with ((h / x)²); [apply sqrt_Rsqr; apply Rlt_le, Rdiv_lt_0_compat; assumption|].
    unfold Rsqr. replace (h / x * (h / x)) with (h * h / (x * x)) by (field; lra). unfold h. rewrite sqrt_sqrt by lra. field. lra. }
  rewrite cos_atan, sin_atan, E. split; field; lra.
Qed.
Lemma atan2_at y x : (x <> 0 \/ y <> 0) -> let h := sqrt (x * x + y * y) in cos (atan2 y x) = x / h /\ sin (atan2 y x) = y / h.
Proof.
  intros N h. unfold atan2. destruct (ltb 0 x) eqn:A; [apply ltb_iff in A; now apply atan_at|]. apply ltb_false in A.
  destruct (ltb x 0) eqn:B.
  - apply ltb_iff in B. destruct (atan_at (- y) (- x)) as [C S]; [lra|].
    replace (- y / - x) with (y / x) in C, S by (field; lra). replace (- x * - x + - y * - y) with (x * x + y * y) in C, S by ring. fold h in C, S.
    assert (Hh : 0 < h) by (apply sqrt_lt_R0, hyp_pos, N).
    assert (K : cos (atan (y / x) + PI) = x / h /\ sin (atan (y / x) + PI) = y / h) by (rewrite neg_cos, neg_sin, C, S; split; field; lra).
    destruct (ltb y 0); [|exact K].
    assert (E : atan (y / x) - PI = atan (y / x) + PI - 2 * PI) by ring.
    rewrite E. set (t := atan (y / x) + PI) in *. destruct K as [K1 K2].
    rewrite cos_minus, sin_minus, cos_2PI, sin_2PI, K1, K2. split; ring.
  - apply ltb_false in B. assert (X : x = 0) by lra. subst x.
    assert (E : h = Rabs y) by (unfold h; replace (0 * 0 + y * y) with (y²) by (unfold Rsqr; ring); apply sqrt_Rsqr_abs).
    destruct (ltb 0 y) eqn:C.
    + apply ltb_iff in C. rewrite E, Rabs_right, cos_PI2, sin_PI2 by lra. split; field; lra.
    + destruct (ltb y 0) eqn:D.
      * apply ltb_iff in D. rewrite E, Rabs_left, cos_neg, sin_neg, cos_PI2, sin_PI2 by lra. split; field; lra.
      * apply ltb_false in C, D. destruct N as [N|N]; lra.
Qed.
(** The way it is used: right unless the direction is the negative axis. *)
Lemma arctan_at x y : x <> 0 \/ 0 < y -> let h := sqrt (y * y + x * x) in cos (arctan x y) = y / h /\ sin (arctan x y) = x / h.
Proof.
  intros N h. unfold arctan. destruct (eqb (Rabs x) 0) eqn:E.
  - apply eqb_iff in E. assert (X : x = 0) by (destruct (Req_dec x 0) as [X|X]; [assumption|apply Rabs_no_R0 in X; congruence]). subst x.
    destruct N as [N|N]; [congruence|]. assert (Eh : h = y) by (unfold h; replace (y * y + 0 * 0) with (y²) by (unfold Rsqr; ring); apply sqrt_Rsqr; lra).
    rewrite Eh, cos_0, sin_0. split; field; lra.
  - apply atan2_at. assert (X : x <> 0) by (intros ->; rewrite Rabs_R0 in E; unfold eqb in E; destruct (Req_EM_T 0 0); congruence). tauto.
Qed.
Lemma arctan_zero y : arctan 0 y = 0.
Proof. unfold arctan. rewrite Rabs_R0. replace (eqb 0 0) with true by (symmetry; now apply eqb_iff). reflexivity. Qed.
(** The matrix with given cosines and sines. *)
Definition turn (cm sm cn sn cx sx : R) : mat :=
  Mat cn (sn * sm) (- sn * cm)
      (sx * sn) (cx * cm - sx * cn * sm) (cx * sm + sx * cn * cm)
      (cx * sn) (- sx * cm - cx * cn * sm) (- sx * sm + cx * cn * cm).
Lemma standard_is bv : let mu := arctan (- e10 bv) (e20 bv) in let nu := arctan (- e20 bv) (e00 bv * cos mu) in
  let xi := arctan (e01 bv * sin nu - e11 bv * cos nu * sin mu + e21 bv * cos nu * cos mu) (e11 bv * cos mu + e21 bv * sin mu) in
  standard_orientation bv = turn (cos mu) (sin mu) (cos nu) (sin nu) (cos xi) (sin xi).
Proof. intros mu nu xi. unfold standard_orientation. fold mu. rewrite cos_and_sin_ok. fold nu. rewrite cos_and_sin_ok. fold xi. rewrite cos_and_sin_ok. reflexivity. Qed.
Lemma turn_rotation cm sm cn sn cx sx : sm * sm + cm * cm = 1 -> sn * sn + cn * cn = 1 -> sx * sx + cx * cx = 1 -> rotation (turn cm sm cn sn cx sx).
Proof.
  intros M N X. assert (Em : sm * sm = 1 - cm * cm) by lra. assert (En : sn * sn = 1 - cn * cn) by lra. assert (Ex : sx * sx = 1 - cx * cx) by lra.
  unfold rotation, triple, dot, cross, va, vb, vc, turn; cbn [rx ry rz e00 e01 e02 e10 e11 e12 e20 e21 e22].
  repeat split; nsatz.
Qed.
Lemma rotation_proof : forall bv, rotation (standard_orientation bv).
Proof. intros bv. rewrite standard_is. apply turn_rotation; exact (sin2_cos2 _). Qed.
Lemma last_step (num den k : R) : 0 < den * den + num * num -> k = sqrt (den * den + num * num) -> den / k * den + num / k * num = k /\ den / k * num - num / k * den = 0.
Proof.
  intros P ->. pose proof (sqrt_lt_R0 _ P) as K. pose proof (sqrt_sqrt _ (Rlt_le _ _ P)) as KK. set (k := sqrt (den * den + num * num)) in *.
  split; [|field; lra]. apply Rmult_eq_reg_r with k; [|lra]. rewrite KK. field. lra.
Qed.
Lemma standard_general bv cm sm cn sn r : 
  let num := e01 bv * sn - e11 bv * cn * sm + e21 bv * cn * cm in let den := e11 bv * cm + e21 bv * sm in
  0 < r -> e00 bv * cn + e10 bv * sn * sm - e20 bv * sn * cm = r -> e10 bv * cm + e20 bv * sm = 0 -> e00 bv * sn + cn * (e20 bv * cm - e10 bv * sm) = 0 -> num <> 0 \/ 0 < den ->
  standard (turn cm sm cn sn (cos (arctan num den)) (sin (arctan num den))) bv.
Proof.
  intros num den R A1 A2 A3 N. destruct (arctan_at num den N) as [C S]. cbv zeta in C, S. set (k := sqrt (den * den + num * num)) in *.
  assert (P : 0 < den * den + num * num) by (apply hyp_pos; destruct N as [N|N]; [right; assumption|left; lra]).
  pose proof (sqrt_lt_R0 _ P) as K. fold k in K. destruct (last_step num den k P eq_refl) as [L1 L2]. rewrite C, S. set (cx := den / k) in *. set (sx := num / k) in *.
  unfold standard, at_, va, vb, turn; cbn [rx ry rz e00 e01 e02 e10 e11 e12 e20 e21 e22].
  assert (E1 : e00 bv * cn + e10 bv * (sn * sm) + e20 bv * (- sn * cm) = r) by lra.
  assert (E2 : e00 bv * (sx * sn) + e10 bv * (cx * cm - sx * cn * sm) + e20 bv * (cx * sm + sx * cn * cm) = 0).
  { transitivity (cx * (e10 bv * cm + e20 bv * sm) + sx * (e00 bv * sn + cn * (e20 bv * cm - e10 bv * sm))); [ring|]. rewrite A2, A3. ring. }
  assert (E3 : e00 bv * (cx * sn) + e10 bv * (- sx * cm - cx * cn * sm) + e20 bv * (- sx * sm + cx * cn * cm) = 0).
  { transitivity (- sx * (e10 bv * cm + e20 bv * sm) + cx * (e00 bv * sn + cn * (e20 bv * cm - e10 bv * sm))); [ring|]. rewrite A2, A3. ring. }
  assert (E4 : e01 bv * (sx * sn) + e11 bv * (cx * cm - sx * cn * sm) + e21 bv * (cx * sm + sx * cn * cm) = k).
  { transitivity (cx * den + sx * num); [unfold num, den; ring|exact L1]. }
  assert (E5 : e01 bv * (cx * sn) + e11 bv * (- sx * cm - cx * cn * sm) + e21 bv * (- sx * sm + cx * cn * cm) = 0).
  { transitivity (cx * num - sx * den); [unfold num, den; ring|exact L2]. }
  rewrite E1, E2, E3, E4, E5. repeat split; assumption.
Qed.
Lemma standard_up_proof : forall bv, 0 < e20 bv ->
  e00 bv * (e10 bv * e11 bv + e20 bv * e21 bv) <> (e10 bv * e10 bv + e20 bv * e20 bv) * e01 bv \/ e10 bv * e21 bv < e20 bv * e11 bv ->
  standard (standard_orientation bv) bv.
Proof.
  intros bv Z N. rewrite standard_is. set (ax := e00 bv) in *. set (ay := e10 bv) in *. set (az := e20 bv) in *.
  destruct (arctan_at (- ay) az ltac:(right; assumption)) as [Cm Sm]. cbv zeta in Cm, Sm.
  assert (P : 0 < az * az + - ay * - ay) by (apply hyp_pos; lra). pose proof (sqrt_lt_R0 _ P) as H. pose proof (sqrt_sqrt _ (Rlt_le _ _ P)) as HH. set (h := sqrt (az * az + - ay * - ay)) in *.
  set (cm := cos (arctan (- ay) az)) in *. set (sm := sin (arctan (- ay) az)) in *.
  assert (Cp : 0 < cm) by (rewrite Cm; now apply Rdiv_lt_0_compat).
  destruct (arctan_at (- az) (ax * cm) ltac:(left; lra)) as [Cn Sn]. cbv zeta in Cn, Sn.
  assert (Pr : 0 < ax * ax + h * h) by (apply hyp_pos; lra). pose proof (sqrt_lt_R0 _ Pr) as R. pose proof (sqrt_sqrt _ (Rlt_le _ _ Pr)) as RR. set (r := sqrt (ax * ax + h * h)) in *.
  assert (E : sqrt (ax * cm * (ax * cm) + - az * - az) = r * cm).
  { replace (ax * cm * (ax * cm) + - az * - az) with ((r * cm)²); [apply sqrt_Rsqr; apply Rlt_le, Rmult_lt_0_compat; assumption|].
    unfold Rsqr. assert (D : az = h * cm) by (rewrite Cm; field; lra). transitivity (r * r * (cm * cm)); [ring|]. rewrite RR, D. ring. }
  rewrite E in Cn, Sn. assert (D : az = h * cm) by (rewrite Cm; field; lra). assert (Dy : ay = - (h * sm)) by (rewrite Sm; field; lra).
  assert (Cn' : cos (arctan (- az) (ax * cm)) = ax / r) by (rewrite Cn; field; lra).
  assert (Sn' : sin (arctan (- az) (ax * cm)) = - h / r) by (rewrite Sn, D; field; lra).
  rewrite Cn', Sn'. clear Cn Sn Cn' Sn' E.
  assert (M1 : sm * sm + cm * cm = 1) by exact (sin2_cos2 _).
  apply (standard_general bv cm sm (ax / r) (- h / r) r R); fold ax ay az.
  - rewrite Dy, D. transitivity ((ax * ax + h * h * (sm * sm + cm * cm)) / r); [field; lra|]. rewrite M1, Rmult_1_r, <- RR. field. lra.
  - rewrite Dy, D. ring.
  - rewrite Dy, D. transitivity (ax * h / r * (sm * sm + cm * cm - 1)); [field; lra|]. rewrite M1. ring.
  - destruct N as [N|N].
    + left. intros F. apply N. assert (F' : (e01 bv * (- h / r) - e11 bv * (ax / r) * sm + e21 bv * (ax / r) * cm) * (r * h) = 0) by (rewrite F; ring).
      assert (G : - e01 bv * (h * h) + ax * (e11 bv * (- (h * sm)) + e21 bv * (h * cm)) = 0) by (rewrite <- F'; field; lra).
      rewrite <- Dy, <- D, HH in G. lra.
    + right. replace (e11 bv * cm + e21 bv * sm) with ((az * e11 bv - ay * e21 bv) / h) by (rewrite D, Dy; field; lra).
      apply Rdiv_lt_0_compat; lra.
Qed.
Lemma standard_flat_proof : forall bv, 0 < e00 bv -> e10 bv = 0 -> e20 bv = 0 -> e21 bv <> 0 \/ 0 < e11 bv -> standard (standard_orientation bv) bv.
Proof.
  intros bv X Y Z N. rewrite standard_is. rewrite Y, Z, Ropp_0, !arctan_zero, cos_0, sin_0.
  apply (standard_general bv 1 0 1 0 (e00 bv) X); rewrite ?Y, ?Z; try ring.
  destruct N as [N|N]; [left|right; lra]. intros F. apply N. lra.
Qed.
