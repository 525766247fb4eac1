(** The basis vectors that are made from lengths and angles, or from a matrix. *)
From Coq Require Import Reals Lra Lia.
From Verif Require Import Base PrimitiveModel AngleModel AngleSpec AngleProofs LatticeModel LatticeSpec LatticeDualProofs.
Local Open Scope R_scope.

Lemma determinant_triple m : determinant m = triple m.
Proof. unfold determinant, det2, triple, dot, cross, va, vb, vc; cbn [rx ry rz]. ring. Qed.
(** The other matrix. *)
Definition other (m : mat) : mat := transpose (map_mat (fun x => x * (2 * PI)) (mat_inverse m)).
Lemma other_at m : triple m <> 0 -> va (other m) = scale (2 * PI / triple m) (cross (vb m) (vc m)) /\ vb (other m) = scale (2 * PI / triple m) (cross (vc m) (va m)) /\ vc (other m) = scale (2 * PI / triple m) (cross (va m) (vb m)).
Proof.
  intros N. unfold other, mat_inverse. rewrite determinant_triple. replace (eqb (triple m) 0) with false by (symmetry; unfold eqb; destruct (Req_EM_T _ _); congruence).
  unfold transpose, map_mat, adjoint, det2, scale, cross, va, vb, vc. cbn [rx ry rz e00 e01 e02 e10 e11 e12 e20 e21 e22]. unfold Rdiv.
  repeat split; f_equal; ring.
Qed.
Lemma other_dual m : triple m <> 0 -> dual_to m (other m).
Proof.
  intros N. destruct (other_at m N) as (A & B & C). unfold dual_to. rewrite A, B, C.
  assert (K : forall x k y, dot x (scale k y) = k * dot x y) by (intros; unfold dot, scale; cbn [rx ry rz]; ring). rewrite !K.
  assert (Z : forall x y, dot x (cross x y) = 0 /\ dot y (cross x y) = 0) by (intros; unfold dot, cross; cbn [rx ry rz]; split; ring).
  assert (T : dot (vb m) (cross (vc m) (va m)) = triple m /\ dot (vc m) (cross (va m) (vb m)) = triple m) by (unfold triple, dot, cross; cbn [rx ry rz]; split; ring).
  destruct T as [T1 T2]. fold (triple m). rewrite T1, T2. repeat rewrite (proj1 (Z _ _)). repeat rewrite (proj2 (Z _ _)).
  repeat split; try ring; field; assumption.
Qed.
Lemma set_matrix_proof : forall m, triple m <> 0 -> exists m', set_matrix m Angstrom = Ok (m, m') /\ set_matrix m InverseAngstrom = Ok (m', m) /\ dual_to m m' /\ dual_to m' m.
Proof. intros m N. exists (other m). pose proof (other_dual m N) as D. pose proof (dual_sym _ _ D). repeat split; try reflexivity; apply D || apply H. Qed.
Lemma set_singular_proof : forall m, triple m = 0 -> set_matrix m Angstrom = Ok (m, Mat 0 0 0 0 0 0 0 0 0).
Proof.
  intros m Z. unfold set_matrix, mat_inverse. rewrite determinant_triple, Z. replace (eqb 0 0) with true by (symmetry; now apply eqb_iff).
  unfold map_mat, transpose; cbn. rewrite Rmult_0_l. reflexivity.
Qed.

(** The formulas. *)
Lemma unit_volume_inv c v : unit_volume c = Ok v -> 0 < squared c /\ v = sqrt (squared c).
Proof.
  intros H. destruct (Rlt_dec 0 (squared c)) as [P|P].
  - rewrite unit_volume_ok in H by assumption. split; [assumption|]. congruence.
  - rewrite unit_volume_throw in H by lra. discriminate.
Qed.
Lemma dual_formula l c s : 0 < rx l -> 0 < ry l -> 0 < rz l -> sines_of c s -> 0 < squared c -> exists s', dual_parameters l c s =
  Ok (R3 (2 * PI * rx s / rx l / sqrt (squared c)) (2 * PI * ry s / ry l / sqrt (squared c)) (2 * PI * rz s / rz l / sqrt (squared c)),
      R3 ((ry c * rz c - rx c) / (ry s * rz s)) ((rz c * rx c - ry c) / (rz s * rx s)) ((rx c * ry c - rz c) / (rx s * ry s)), s').
Proof.
  intros X Y Z (Sx & Sy & Sz & Ex & Ey & Ez) Q. unfold dual_parameters. rewrite (unit_volume_ok _ Q). cbn [bind].
  pose proof (sqrt_lt_R0 _ Q) as V. set (v := sqrt (squared c)) in *. unfold squared in Q.
  destruct (dual_one_ok v (rx l) (rx c) (rx s) (ry c) (rz c) (ry s) (rz s)) as (s0 & R0 & _); try assumption; [lra|].
  destruct (dual_one_ok v (ry l) (ry c) (ry s) (rz c) (rx c) (rz s) (rx s)) as (s1 & R1 & _); try assumption; [lra|].
  destruct (dual_one_ok v (rz l) (rz c) (rz s) (rx c) (ry c) (rx s) (ry s)) as (s2 & R2 & _); try assumption; [lra|].
  rewrite R0. cbn [bind]. rewrite R1. cbn [bind]. rewrite R2. cbn [bind]. eexists. reflexivity.
Qed.
Lemma dual_throw l c s : squared c <= 0 -> dual_parameters l c s = Throw.
Proof. intros Q. unfold dual_parameters. now rewrite (unit_volume_throw _ Q). Qed.
(** Parameters are determined by vectors. *)
Lemma sq_inj x y : 0 < x -> 0 < y -> x * x = y * y -> x = y.
Proof. intros A B E. apply Rsqr_inj; [lra|lra|exact E]. Qed.
Lemma params_unique m l c l' c' : has_parameters m l c -> has_parameters m l' c' -> l = l' /\ c = c'.
Proof.
  intros (X & Y & Z & A & B & C & D & E & F) (X' & Y' & Z' & A' & B' & C' & D' & E' & F').
  assert (Hx : rx l = rx l') by (apply sq_inj; congruence). assert (Hy : ry l = ry l') by (apply sq_inj; congruence). assert (Hz : rz l = rz l') by (apply sq_inj; congruence).
  split; [now apply r3_eq|]. rewrite <- Hx, <- Hy, <- Hz in *.
  apply r3_eq.
  - apply Rmult_eq_reg_l with (ry l * rz l); [congruence|]. apply Rgt_not_eq, Rmult_lt_0_compat; assumption.
  - apply Rmult_eq_reg_l with (rz l * rx l); [congruence|]. apply Rgt_not_eq, Rmult_lt_0_compat; assumption.
  - apply Rmult_eq_reg_l with (rx l * ry l); [congruence|]. apply Rgt_not_eq, Rmult_lt_0_compat; assumption.
Qed.
(** The matrix made from parameters. *)
Definition bmat (l c s : r3) : mat :=
  Mat (rx l) (ry l * rz c) (rz l * ry c)
      0 (ry l * rz s) (rz l * ((rx c - ry c * rz c) / rz s))
      0 0 (rz l * sqrt (squared c) / rz s).
Lemma bmat_ok l c s : 0 < rx l -> 0 < ry l -> 0 < rz l -> sines_of c s -> 0 < squared c -> has_parameters (bmat l c s) l c /\ 0 < triple (bmat l c s).
Proof.
  intros X Y Z (Sx & Sy & Sz & Ex & Ey & Ez) Q. pose proof (sqrt_lt_R0 _ Q) as V. pose proof (sqrt_sqrt _ (Rlt_le _ _ Q)) as VV.
  unfold bmat. set (v := sqrt (squared c)) in *. unfold squared in VV.
  split.
  - unfold has_parameters, dot, va, vb, vc; cbn [rx ry rz e00 e01 e02 e10 e11 e12 e20 e21 e22]. split; [assumption|]. split; [assumption|]. split; [assumption|].
    split; [ring|]. split.
    { transitivity (ry l * ry l * (rz s * rz s + rz c * rz c)); [ring|]. rewrite Ez. ring. }
    split.
    { transitivity (rz l * rz l * (ry c * ry c + ((rx c - ry c * rz c) * (rx c - ry c * rz c) + v * v) / (rz s * rz s))); [field; lra|].
      rewrite VV. replace ((rx c - ry c * rz c) * (rx c - ry c * rz c) + (1 - (0 + rx c * rx c + ry c * ry c + rz c * rz c) + 2 * rx c * ry c * rz c)) with ((1 - ry c * ry c) * (rz s * rz s)) by (replace (rz s * rz s) with (1 - rz c * rz c) by lra; ring).
      field. lra. }
    split; [field; lra|]. split; ring.
  - unfold triple, dot, cross, va, vb, vc; cbn [rx ry rz e00 e01 e02 e10 e11 e12 e20 e21 e22].
    replace (_ + _ + _) with (rx l * (ry l * rz l * v)) by (field; lra). repeat apply Rmult_lt_0_compat; assumption.
Qed.
Lemma b_matrix_ok l c s dc dv : 0 < rx l -> 0 < ry l -> 0 < rz l -> sines_of c s -> 0 < squared c ->
  rx dc = (ry c * rz c - rx c) / (ry s * rz s) -> rz dv = 2 * PI * rz s / rz l / sqrt (squared c) -> b_matrix l c s dc dv = Ok (bmat l c s).
Proof.
  intros X Y Z (Sx & Sy & Sz & _) Q C L. pose proof (sqrt_lt_R0 _ Q) as V. pose proof two_pi as TP. pose proof PI_RGT_0.
  unfold b_matrix, bmat. rewrite rdiv_ok.
  - cbn [bind]. f_equal. rewrite C, L. f_equal; field; lra.
  - rewrite L. apply Rgt_not_eq. repeat apply Rdiv_lt_0_compat; try assumption. apply Rmult_lt_0_compat; assumption.
Qed.
(** Going back and forth. *)
Lemma dual_back l c s : 0 < rx l -> 0 < ry l -> 0 < rz l -> sines_of c s -> 0 < squared c -> exists l' c' s', dual_parameters l c s = Ok (l', c', s') /\
  0 < rx l' /\ 0 < ry l' /\ 0 < rz l' /\ sines_of c' s' /\ 0 < squared c' /\ exists s'', dual_parameters l' c' s' = Ok (l, c, s'').
Proof.
  intros X Y Z S Q. destruct (bmat_ok l c s X Y Z S Q) as [P T]. set (m := bmat l c s) in *.
  assert (N : triple m <> 0) by lra. pose proof (other_dual m N) as D.
  destruct (dual_parameters_proof _ _ _ _ _ P S D) as (l' & c' & s' & R & P' & S'). exists l', c', s'. split; [assumption|].
  pose proof (dual_sym _ _ D) as D'. pose proof (squared_pos _ _ _ P' (triple_nz _ _ D')) as Q'.
  destruct (dual_parameters_proof _ _ _ _ _ P' S' D') as (l2 & c2 & s2 & R2 & P2 & S2).
  destruct (params_unique _ _ _ _ _ P P2) as [<- <-]. destruct P' as (X' & Y' & Z' & _).
  split; [assumption|]. split; [assumption|]. split; [assumption|]. split; [assumption|]. split; [assumption|]. now exists s2.
Qed.
(** Which cosines there are. *)
Lemma physical l c s : 0 < rx l -> 0 < ry l -> 0 < rz l -> sines_of c s -> (exists m, triple m <> 0 /\ has_parameters m l c) <-> 0 < squared c.
Proof.
  intros X Y Z S. split.
  - intros (m & N & P). now apply (squared_pos m l).
  - intros Q. destruct (bmat_ok l c s X Y Z S Q) as [P T]. exists (bmat l c s). split; [lra|assumption].
Qed.
Lemma set_parameters_proof : forall bits v a lu au c s, to_cosines_sines bits a au = Ok (c, s) -> lu <> OtherUnit ->
  0 < rx v -> 0 < ry v -> 0 < rz v -> sines_of c s -> (exists m, triple m <> 0 /\ has_parameters m v c) ->
  exists real recip, set_parameters bits v a lu au = Ok (real, recip) /\ dual_to real recip /\ 0 < triple real /\ has_parameters (match lu with Angstrom => real | _ => recip end) v c /\
    ry (va recip) = 0 /\ rz (va recip) = 0 /\ rz (vb recip) = 0 /\ 0 < rx (va recip) /\ 0 < ry (vb recip).
Proof.
  intros bits v a lu au c s E U X Y Z S H. apply (physical _ _ _ X Y Z S) in H. rename H into Q.
  destruct (dual_back _ _ _ X Y Z S Q) as (l' & c' & s' & R & X' & Y' & Z' & S' & Q' & s'' & R').
  unfold set_parameters. rewrite E. cbn [bind].
  assert (G : forall l c s dl dc ds, 0 < rx l -> 0 < ry l -> 0 < rz l -> sines_of c s -> 0 < squared c -> dual_parameters l c s = Ok (dl, dc, ds) -> exists real, bind (b_matrix l c s dc dl) (fun b => set_matrix b InverseAngstrom) = Ok (real, bmat l c s) /\ dual_to real (bmat l c s) /\ 0 < triple real /\ has_parameters (bmat l c s) l c /\ has_parameters real dl dc).
  { clear. intros l c s dl dc ds X Y Z S Q R. destruct (dual_formula _ _ _ X Y Z S Q) as [s0 F].
    assert (F' := R). rewrite F in F'. injection F' as Fl Fc _. rewrite b_matrix_ok; try assumption; [|now rewrite <- Fc|now rewrite <- Fl].
    cbn [bind]. destruct (bmat_ok l c s X Y Z S Q) as [P T]. destruct (set_matrix_proof (bmat l c s)) as (m' & _ & M & D & D'); [lra|].
    exists m'. split; [exact M|]. split; [exact D'|]. split.
    - pose proof (triple_dual _ _ D) as TT. pose proof two_pi as TP. destruct (Rle_lt_dec (triple m') 0) as [L|L]; [|assumption].
      assert (K : 0 < 2 * PI * (2 * PI) * (2 * PI)) by (apply Rmult_lt_0_compat; [apply Rmult_lt_0_compat|]; exact two_pi). rewrite <- TT in K.
      assert (K2 : triple (bmat l c s) * triple m' <= triple (bmat l c s) * 0) by (apply Rmult_le_compat_l; lra). lra.
    - split; [assumption|]. destruct (dual_parameters_proof _ _ _ _ _ P S D) as (l' & c' & s' & R' & P' & _). congruence. }
  assert (B : forall l c s, 0 < rx l -> 0 < ry l -> sines_of c s -> ry (va (bmat l c s)) = 0 /\ rz (va (bmat l c s)) = 0 /\ rz (vb (bmat l c s)) = 0 /\ 0 < rx (va (bmat l c s)) /\ 0 < ry (vb (bmat l c s))).
  { clear. intros l c s X Y (_ & _ & S & _). cbn. repeat split; try assumption. now apply Rmult_lt_0_compat. }
  destruct lu; [| |congruence].
  - rewrite R. cbn [bind]. destruct (G _ _ _ _ _ _ X' Y' Z' S' Q' R') as (real & A & D & T & P & P'). exists real, (bmat l' c' s'). split; [exact A|]. split; [assumption|]. split; [assumption|]. split; [assumption|]. now apply B.
  - rewrite R. cbn [bind]. destruct (G _ _ _ _ _ _ X Y Z S Q R) as (real & A & D & T & P & P'). exists real, (bmat v c s). split; [exact A|]. split; [assumption|]. split; [assumption|]. split; [assumption|]. now apply B.
Qed.
Lemma set_parameters_throws_proof : forall bits v a lu au c s, to_cosines_sines bits a au = Ok (c, s) -> 
  0 < rx v -> 0 < ry v -> 0 < rz v -> sines_of c s -> ~ (exists m, triple m <> 0 /\ has_parameters m v c) -> set_parameters bits v a lu au = Throw.
Proof.
  intros bits v a lu au c s E X Y Z S H. rewrite (physical _ _ _ X Y Z S) in H. unfold set_parameters. rewrite E. cbn [bind].
  rewrite dual_throw by lra. destruct lu; reflexivity.
Qed.
