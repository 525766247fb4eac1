(** Vectors that are rotated to the standard orientation and back. *)
From Coq Require Import Reals Lra Lia Nsatz.
From Verif Require Import Base PrimitiveModel AngleModel AngleSpec AngleProofs LatticeModel LatticeSpec LatticeDualProofs LatticeVectorProofs OrientModel OrientSpec OrientProofs.
Local Open Scope R_scope.

Lemma upper_ok l c s : sines_of c s -> 0 < squared c -> upper_triangular l c s = Ok (bmat l c s).
Proof.
  intros (Sx & Sy & Sz & _) Q. unfold upper_triangular. rewrite unit_volume_ok by assumption. cbn [bind]. rewrite rdiv_ok by lra. cbn [bind]. rewrite rdiv_ok by lra. cbn [bind].
  unfold bmat. f_equal. f_equal; field; lra.
Qed.
(** Rotations keep scalar products and volumes; the transposed matrix turns back. *)
Lemma turn_dot r x y : rotation r -> dot (at_ r x) (at_ r y) = dot x y.
Proof.
  intros (A & B & C & D & E & F & _).
  transitivity (rx x * rx y * dot (va r) (va r) + ry x * ry y * dot (vb r) (vb r) + rz x * rz y * dot (vc r) (vc r) + (rx x * ry y + ry x * rx y) * dot (va r) (vb r) + (ry x * rz y + rz x * ry y) * dot (vb r) (vc r) + (rz x * rx y + rx x * rz y) * dot (vc r) (va r)).
  - unfold dot, at_, va, vb, vc; cbn [rx ry rz]. ring.
  - rewrite A, B, C, D, E, F. unfold dot. ring.
Qed.
Definition columns (a b c : r3) : mat := Mat (rx a) (rx b) (rx c) (ry a) (ry b) (ry c) (rz a) (rz b) (rz c).
Lemma turn_triple r m : triple (columns (at_ r (va m)) (at_ r (vb m)) (at_ r (vc m))) = triple r * triple m.
Proof. unfold triple, dot, cross, va, vb, vc, at_, columns; cbn [rx ry rz e00 e01 e02 e10 e11 e12 e20 e21 e22]. ring. Qed.
Lemma turn_back r x : rotation r -> at_ (transpose r) (at_ r x) = x.
Proof.
  intros (A & B & C & D & E & F & _). unfold dot, va, vb, vc in *; cbn [rx ry rz] in *. apply r3_eq; unfold at_, transpose; cbn [rx ry rz e00 e01 e02 e10 e11 e12 e20 e21 e22].
  - transitivity (rx x * (e00 r * e00 r + e10 r * e10 r + e20 r * e20 r) + ry x * (e00 r * e01 r + e10 r * e11 r + e20 r * e21 r) + rz x * (e02 r * e00 r + e12 r * e10 r + e22 r * e20 r)); [ring|]. rewrite A, D, F. ring.
  - transitivity (rx x * (e00 r * e01 r + e10 r * e11 r + e20 r * e21 r) + ry x * (e01 r * e01 r + e11 r * e11 r + e21 r * e21 r) + rz x * (e01 r * e02 r + e11 r * e12 r + e21 r * e22 r)); [ring|]. rewrite B, D, E. ring.
  - transitivity (rx x * (e02 r * e00 r + e12 r * e10 r + e22 r * e20 r) + ry x * (e01 r * e02 r + e11 r * e12 r + e21 r * e22 r) + rz x * (e02 r * e02 r + e12 r * e12 r + e22 r * e22 r)); [ring|]. rewrite C, E, F. ring.
Qed.
Lemma product_columns r m : va (mul_mat_mat r m) = at_ r (va m) /\ vb (mul_mat_mat r m) = at_ r (vb m) /\ vc (mul_mat_mat r m) = at_ r (vc m).
Proof. unfold mul_mat_mat, va, vb, vc, at_; cbn [rx ry rz e00 e01 e02 e10 e11 e12 e20 e21 e22]. repeat split; f_equal; ring. Qed.
Lemma rotation_transposed r : rotation r -> rotation (transpose r).
Proof.
  intros (A & B & C & D & E & F & T). unfold rotation, triple, dot, cross, va, vb, vc, transpose in *; cbn [rx ry rz e00 e01 e02 e10 e11 e12 e20 e21 e22] in *.
  (* rows are cross products of rows *)
  pose proof (turn_back r (R3 1 0 0)) as K1. pose proof (turn_back r (R3 0 1 0)) as K2. clear K1 K2.
  repeat split; try nsatz.
Qed.
Lemma mat_eq m n : va m = va n -> vb m = vb n -> vc m = vc n -> m = n.
Proof. destruct m, n; unfold va, vb, vc; cbn. intros E F G. injection E. injection F. injection G. intros; subst; reflexivity. Qed.
(** An upper triangular basis is known from its lengths and angles. *)
Lemma upper_unique m l c s : has_parameters m l c -> sines_of c s -> 0 < squared c -> 0 < rx (va m) -> ry (va m) = 0 -> rz (va m) = 0 -> 0 < ry (vb m) -> rz (vb m) = 0 -> 0 < triple m -> m = bmat l c s.
Proof.
  intros (X & Y & Z & A & B & C & D & E & F) (Sx & Sy & Sz & Ex & Ey & Ez) Q P1 P2 P3 P4 P5 T.
  pose proof (sqrt_lt_R0 _ Q) as V. pose proof (sqrt_sqrt _ (Rlt_le _ _ Q)) as VV. unfold bmat. set (v := sqrt (squared c)) in *. unfold squared in VV.
  unfold dot, va, vb, vc in *; cbn [rx ry rz] in *. rewrite P2, P3, P5 in *.
  assert (G0 : e00 m = rx l) by (apply sq_inj; [assumption|assumption|lra]).
  assert (G1 : e01 m = ry l * rz c) by (apply Rmult_eq_reg_l with (rx l); [rewrite <- G0 at 1; lra|lra]).
  assert (G2 : e02 m = rz l * ry c) by (apply Rmult_eq_reg_l with (rx l); [rewrite <- G0 at 1; lra|lra]).
  assert (G3 : e11 m = ry l * rz s). { apply sq_inj; [assumption|now apply Rmult_lt_0_compat|]. rewrite G1 in B. replace (ry l * rz s * (ry l * rz s)) with (ry l * ry l * (rz s * rz s)) by ring. replace (rz s * rz s) with (1 - rz c * rz c) by lra. lra. }
  assert (G4 : e12 m = rz l * ((rx c - ry c * rz c) / rz s)).
  { rewrite G1, G2, G3 in D. apply Rmult_eq_reg_l with (ry l * rz s); [|apply Rgt_not_eq, Rmult_lt_0_compat; assumption]. transitivity (ry l * rz l * rx c - ry l * rz c * (rz l * ry c)); [lra|field; lra]. }
  assert (G5 : 0 < e22 m).
  { unfold triple, dot, cross, va, vb, vc in T; cbn [rx ry rz] in T. rewrite P2, P3, P5 in T. assert (T' : 0 < e00 m * e11 m * e22 m) by lra.
    assert (0 < e00 m * e11 m) by (apply Rmult_lt_0_compat; assumption). apply Rmult_lt_reg_l with (e00 m * e11 m); [assumption|lra]. }
  assert (G6 : e22 m = rz l * v / rz s).
  { apply sq_inj; [assumption|apply Rdiv_lt_0_compat; [now apply Rmult_lt_0_compat|assumption]|].
    rewrite G2, G4 in C. apply Rmult_eq_reg_r with (rz s * rz s); [|apply Rgt_not_eq, Rmult_lt_0_compat; assumption].
    assert (C' : e22 m * e22 m = rz l * rz l - rz l * ry c * (rz l * ry c) - rz l * ((rx c - ry c * rz c) / rz s) * (rz l * ((rx c - ry c * rz c) / rz s))) by lra.
    rewrite C'. replace (rz l * v / rz s * (rz l * v / rz s) * (rz s * rz s)) with (rz l * rz l * (v * v)) by (field; lra).
    rewrite VV. replace ((rz l * rz l - rz l * ry c * (rz l * ry c) - rz l * ((rx c - ry c * rz c) / rz s) * (rz l * ((rx c - ry c * rz c) / rz s))) * (rz s * rz s)) with (rz l * rz l * ((1 - ry c * ry c) * (rz s * rz s) - (rx c - ry c * rz c) * (rx c - ry c * rz c))) by (field; lra).
    replace (rz s * rz s) with (1 - rz c * rz c) by lra. ring. }
  destruct m; cbn in *. subst. reflexivity.
Qed.
Lemma parameters_turned r m l c : rotation r -> has_parameters m l c <-> has_parameters (mul_mat_mat r m) l c.
Proof. intros R. destruct (product_columns r m) as (A & B & C). unfold has_parameters. rewrite A, B, C, !(turn_dot r _ _ R). reflexivity. Qed.
Lemma triple_turned r m : rotation r -> triple (mul_mat_mat r m) = triple m.
Proof. intros (_ & _ & _ & _ & _ & _ & T). unfold triple. destruct (product_columns r m) as (A & B & C). rewrite A, B, C. transitivity (triple r * triple m); [|rewrite T; unfold triple; ring]. rewrite <- turn_triple. reflexivity. Qed.

Lemma reassemble_proof : forall old v c s, standard (standard_orientation old) old -> 0 < rx v -> 0 < ry v -> 0 < rz v -> sines_of c s -> (exists m, triple m <> 0 /\ has_parameters m v c) ->
  exists new, reassemble old v c s = Ok new /\ has_parameters new v c /\ 0 < triple new /\ along (va new) (va old) /\ same_side new old.
Proof.
  intros old v c s St X Y Z S M. apply (physical _ _ _ X Y Z S) in M. pose proof (rotation_proof old) as R. pose proof (rotation_transposed _ R) as Rt.
  set (r := standard_orientation old) in *. unfold reassemble. fold r. rewrite (upper_ok v c s S M). cbn [bind]. eexists. split; [reflexivity|].
  destruct (bmat_ok v c s X Y Z S M) as [P T]. split; [now apply parameters_turned|]. split; [now rewrite triple_turned|].
  destruct (product_columns (transpose r) (bmat v c s)) as (A & B & _). destruct St as (S1 & S2 & S3 & S4 & S5). destruct S as (_ & _ & Sz & _).
  assert (Ea : va (bmat v c s) = scale (rx v / rx (at_ r (va old))) (at_ r (va old))) by (change (va (bmat v c s)) with (R3 (rx v) 0 0); revert S1 S2 S3; generalize (at_ r (va old)); clear; intros a S1 S2 S3; apply r3_eq; cbn [scale rx ry rz]; rewrite ?S2, ?S3; [field; lra|ring|ring]).
  assert (L : forall m k x, at_ m (scale k x) = scale k (at_ m x)) by (intros; apply r3_eq; unfold at_, scale; cbn [rx ry rz]; ring).
  assert (La : forall m x y, at_ m (R3 (rx x + rx y) (ry x + ry y) (rz x + rz y)) = R3 (rx (at_ m x) + rx (at_ m y)) (ry (at_ m x) + ry (at_ m y)) (rz (at_ m x) + rz (at_ m y))) by (intros; apply r3_eq; unfold at_; cbn [rx ry rz]; ring).
  split.
  - exists (rx v / rx (at_ r (va old))). split; [now apply Rdiv_lt_0_compat|]. rewrite A, Ea, L, (turn_back _ _ R). cbn [scale rx ry rz]. auto.
  - set (q := ry v * rz s / ry (at_ r (vb old))). set (p := (ry v * rz c - q * rx (at_ r (vb old))) / rx (at_ r (va old))). exists p, q. split; [apply Rdiv_lt_0_compat; [now apply Rmult_lt_0_compat|assumption]|].
    assert (Eb : vb (bmat v c s) = R3 (rx (scale p (at_ r (va old))) + rx (scale q (at_ r (vb old)))) (ry (scale p (at_ r (va old))) + ry (scale q (at_ r (vb old)))) (rz (scale p (at_ r (va old))) + rz (scale q (at_ r (vb old))))).
    { change (vb (bmat v c s)) with (R3 (ry v * rz c) (ry v * rz s) 0). unfold p, q. clear p q. revert S1 S2 S3 S4 S5. generalize (at_ r (va old)), (at_ r (vb old)). clear. intros a b S1 S2 S3 S4 S5. apply r3_eq; unfold scale; cbn [rx ry rz]; rewrite ?S2, ?S3, ?S5; [field; lra|field; lra|ring]. }
    rewrite B, Eb, La, !L, !(turn_back _ _ R). cbn [scale rx ry rz]. auto.
Qed.
Lemma unchanged_proof : forall old v c s, standard (standard_orientation old) old -> 0 < triple old -> has_parameters old v c -> sines_of c s -> reassemble old v c s = Ok old.
Proof.
  intros old v c s St T P S. pose proof (rotation_proof old) as R. set (r := standard_orientation old) in *.
  assert (Q : 0 < squared c) by (apply (squared_pos old v); [assumption|lra]). unfold reassemble. fold r. rewrite (upper_ok v c s S Q). cbn [bind]. f_equal.
  destruct (product_columns r old) as (A & B & C). destruct St as (S1 & S2 & S3 & S4 & S5).
  rewrite <- (upper_unique (mul_mat_mat r old) v c s); try assumption; [|now apply parameters_turned|rewrite A; assumption|rewrite A; assumption|rewrite A; assumption|rewrite B; assumption|rewrite B; assumption|now rewrite triple_turned].
  destruct (product_columns (transpose r) (mul_mat_mat r old)) as (A' & B' & C'). apply mat_eq; rewrite ?A', ?B', ?C', ?A, ?B, ?C; apply (turn_back _ _ R).
Qed.
