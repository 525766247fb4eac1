From Verif Require Import Base MatModel MatSpec MatProofs MotionModel MotionSpec.
From Coq Require Import Setoid Morphisms ZifyBool.
Local Open Scope Z_scope.

Lemma m3_of_l9 a : m3_of (l9 a) = a. Proof. destruct a; reflexivity. Qed.
Lemma v3_of_l3 a : v3_of (l3 a) = a. Proof. destruct a; reflexivity. Qed.

(** The operations in terms of the algebra of MatSpec. *)
Lemma motion_mul_eq D a b :
  motion_mul D a b = Mo (mul3 (rotp a) (rotp b)) (frac3 D (add3 (act3 (rotp a) (trap b)) (trap a))).
Proof. unfold motion_mul. now rewrite mul33_model, mul31_model, m3_of_l9, v3_of_l3. Qed.
Lemma motion_inv_eq D a : unimodular (rotp a) ->
  motion_inv D a = Mo (inv3 (rotp a)) (frac3 D (act3 (scale3 (-1) (inv3 (rotp a))) (trap a))).
Proof.
  intros H. unfold motion_inv. rewrite inverse3_model by exact H.
  rewrite m3_of_l9, mul31_model, v3_of_l3. f_equal. f_equal. v3ring.
Qed.
Lemma move_point_eq a p : move_point a p = add3 (act3 (rotp a) p) (trap a).
Proof. unfold move_point. now rewrite mul31_model, v3_of_l3. Qed.
Lemma move_vector_eq a p : move_vector a p = act3 (rotp a) p.
Proof. unfold move_vector. now rewrite mul31_model, v3_of_l3. Qed.
Lemma image_eq a p : image a p = add3 (act3 (rotp a) p) (trap a).
Proof. reflexivity. Qed.

(** ** Congruences *)
Section Mod.
Variable D : Z.
Hypothesis HD : 0 < D.

Definition sp := same_place D.
Lemma sp_refl x : sp x x.
Proof. unfold sp, same_place. rewrite !Z.sub_diag. repeat split; apply Z.divide_0_r. Qed.
Lemma sp_sym x y : sp x y -> sp y x.
Proof.
  intros (A & B & C). repeat split.
  - replace (v0 y - v0 x) with (- (v0 x - v0 y)) by ring. now apply Z.divide_opp_r.
  - replace (v1 y - v1 x) with (- (v1 x - v1 y)) by ring. now apply Z.divide_opp_r.
  - replace (v2 y - v2 x) with (- (v2 x - v2 y)) by ring. now apply Z.divide_opp_r.
Qed.
Lemma sp_trans x y z : sp x y -> sp y z -> sp x z.
Proof.
  intros (A & B & C) (A' & B' & C'). repeat split.
  - replace (v0 x - v0 z) with ((v0 x - v0 y) + (v0 y - v0 z)) by ring. now apply Z.divide_add_r.
  - replace (v1 x - v1 z) with ((v1 x - v1 y) + (v1 y - v1 z)) by ring. now apply Z.divide_add_r.
  - replace (v2 x - v2 z) with ((v2 x - v2 y) + (v2 y - v2 z)) by ring. now apply Z.divide_add_r.
Qed.
Lemma div_lin3 a b c x y z : (D | x) -> (D | y) -> (D | z) -> (D | a * x + b * y + c * z).
Proof. intros. repeat apply Z.divide_add_r; now apply Z.divide_mul_r. Qed.
Lemma sp_act W x y : sp x y -> sp (act3 W x) (act3 W y).
Proof.
  intros (A & B & C). repeat split; m3cbn.
  - match goal with |- (D | ?e) => replace e with (m00 W * (v0 x - v0 y) + m01 W * (v1 x - v1 y) + m02 W * (v2 x - v2 y)) by ring end. now apply div_lin3.
  - match goal with |- (D | ?e) => replace e with (m10 W * (v0 x - v0 y) + m11 W * (v1 x - v1 y) + m12 W * (v2 x - v2 y)) by ring end. now apply div_lin3.
  - match goal with |- (D | ?e) => replace e with (m20 W * (v0 x - v0 y) + m21 W * (v1 x - v1 y) + m22 W * (v2 x - v2 y)) by ring end. now apply div_lin3.
Qed.
Lemma sp_add x y x' y' : sp x x' -> sp y y' -> sp (add3 x y) (add3 x' y').
Proof.
  intros (A & B & C) (A' & B' & C'). unfold add3, motion_id; cbn [rotp trap]. repeat split; cbn [v0 v1 v2].
  - replace (v0 x + v0 y - (v0 x' + v0 y')) with ((v0 x - v0 x') + (v0 y - v0 y')) by ring. now apply Z.divide_add_r.
  - replace (v1 x + v1 y - (v1 x' + v1 y')) with ((v1 x - v1 x') + (v1 y - v1 y')) by ring. now apply Z.divide_add_r.
  - replace (v2 x + v2 y - (v2 x' + v2 y')) with ((v2 x - v2 x') + (v2 y - v2 y')) by ring. now apply Z.divide_add_r.
Qed.
Lemma mod_sp1 x : (D | x mod D - x).
Proof. exists (- (x / D)). pose proof (Z.div_mod x D). lia. Qed.
Lemma sp_frac x : sp (frac3 D x) x.
Proof. unfold frac3. repeat split; cbn [v0 v1 v2]; apply mod_sp1. Qed.
Lemma cong_mod x y : (D | x - y) -> x mod D = y mod D.
Proof.
  intros [k H]. replace x with (y + k * D) by lia. apply Z.mod_add. lia.
Qed.
Lemma sp_frac_eq x y : sp x y -> frac3 D x = frac3 D y.
Proof. intros (A & B & C). apply v3_ext; cbn [frac3 v0 v1 v2]; now apply cong_mod. Qed.
Lemma frac_reduced x : 0 <= v0 x < D -> 0 <= v1 x < D -> 0 <= v2 x < D -> frac3 D x = x.
Proof. intros. apply v3_ext; cbn [frac3 v0 v1 v2]; now apply Z.mod_small. Qed.
Lemma frac_bound x : reduced D (Mo I3 (frac3 D x)).
Proof. unfold reduced; cbn [trap frac3 v0 v1 v2]. pose proof (Z.mod_pos_bound (v0 x) D). 
  pose proof (Z.mod_pos_bound (v1 x) D). pose proof (Z.mod_pos_bound (v2 x) D). lia. Qed.

Lemma motion_ext a b : rotp a = rotp b -> trap a = trap b -> a = b.
Proof. destruct a, b; simpl; intros; subst; reflexivity. Qed.

Lemma near0_spec d : near0 D d = true <-> (D | d).
Proof.
  unfold near0. pose proof (Z.mod_pos_bound d D HD). split; intros E.
  - assert (d mod D = 0) by lia. now apply Z.mod_divide; [lia|].
  - apply Z.mod_divide in E; [|lia]. rewrite E. lia.
Qed.
Lemma m3_eqb_spec a b : m3_eqb a b = true <-> a = b.
Proof.
  unfold m3_eqb. rewrite !andb_true_iff, !Z.eqb_eq. split.
  - intros H. apply m3_ext; tauto.
  - intros ->. tauto.
Qed.

Lemma motion_eqb_spec a b : motion_eqb D a b = true <-> same_motion D a b.
Proof.
  unfold motion_eqb, same_motion. rewrite !andb_true_iff, m3_eqb_spec, !near0_spec. split.
  - intros [[[A B] C] E]. split; auto. apply sp_sym. repeat split; auto.
  - intros [E H]. apply sp_sym in H. destruct H as (A & B & C). auto.
Qed.

Lemma same_motion_refl a : same_motion D a a.
Proof. split; auto. apply sp_refl. Qed.
Lemma same_motion_sym a b : same_motion D a b -> same_motion D b a.
Proof. intros [A B]. split; auto. now apply sp_sym. Qed.
Lemma same_motion_trans a b c : same_motion D a b -> same_motion D b c -> same_motion D a c.
Proof. intros [A B] [A' B']. split; [congruence|]. eapply sp_trans; eauto. Qed.

Lemma motion_mul_cong a b a' b' : same_motion D a a' -> same_motion D b b' ->
  motion_mul D a b = motion_mul D a' b'.
Proof.
  intros [A B] [A' B']. rewrite !motion_mul_eq, A, A'. f_equal. apply sp_frac_eq.
  apply sp_add; auto. now apply sp_act.
Qed.

Lemma motion_assoc a b c : motion_mul D a (motion_mul D b c) = motion_mul D (motion_mul D a b) c.
Proof.
  rewrite !motion_mul_eq. cbn [rotp trap]. rewrite mul3_assoc. f_equal. apply sp_frac_eq.
  eapply sp_trans.
  { apply sp_add; [apply sp_act, sp_frac|apply sp_refl]. }
  apply sp_sym. eapply sp_trans.
  { apply sp_add; [apply sp_refl|apply sp_frac]. }
  match goal with |- sp ?x ?y => replace x with y; [apply sp_refl|] end.
  unfold add3, motion_id; cbn [rotp trap]. v3ring.
Qed.

Lemma motion_mul_reduced a b : reduced D (motion_mul D a b).
Proof. rewrite motion_mul_eq. apply frac_bound. Qed.

Lemma motion_id_l a : same_motion D (motion_mul D motion_id a) a.
Proof.
  rewrite motion_mul_eq. cbn [rotp trap motion_id]. split.
  - apply mul3_1_l.
  - eapply sp_trans; [apply sp_frac|]. rewrite act3_1.
    match goal with |- sp ?x ?y => replace x with y; [apply sp_refl|] end.
    unfold add3, motion_id; cbn [rotp trap]. v3ring.
Qed.
Lemma motion_id_r a : same_motion D (motion_mul D a motion_id) a.
Proof.
  rewrite motion_mul_eq. cbn [rotp trap motion_id]. split.
  - apply mul3_1_r.
  - eapply sp_trans; [apply sp_frac|].
    match goal with |- sp ?x ?y => replace x with y; [apply sp_refl|] end.
    unfold add3, motion_id; cbn [rotp trap]. v3ring.
Qed.

Lemma reduced_same a b : reduced D a -> reduced D b -> same_motion D a b -> a = b.
Proof.
  intros (A1 & A2 & A3) (B1 & B2 & B3) [E S]. apply motion_ext; auto.
  rewrite <- (frac_reduced (trap a)), <- (frac_reduced (trap b)) by auto. now apply sp_frac_eq.
Qed.

Lemma motion_inv_r a : unimodular (rotp a) -> motion_mul D a (motion_inv D a) = motion_id.
Proof.
  intros H. apply reduced_same.
  - apply motion_mul_reduced.
  - unfold reduced, motion_id; simpl; lia.
  - rewrite motion_inv_eq, motion_mul_eq by auto. cbn [rotp trap motion_id]. split; cbn [rotp trap].
    + now apply inv3_r.
    + eapply sp_trans; [apply sp_frac|].
      eapply sp_trans; [apply sp_add; [apply sp_act, sp_frac|apply sp_refl]|].
      rewrite <- act3_mul, scale3_mul_r, inv3_r by auto.
      match goal with |- sp ?x ?y => replace x with y; [apply sp_refl|] end.
      unfold add3, motion_id; cbn [rotp trap]. v3ring.
Qed.
Lemma motion_inv_l a : unimodular (rotp a) -> motion_mul D (motion_inv D a) a = motion_id.
Proof.
  intros H. apply reduced_same.
  - apply motion_mul_reduced.
  - unfold reduced, motion_id; simpl; lia.
  - rewrite motion_inv_eq, motion_mul_eq by auto. cbn [rotp trap motion_id]. split; cbn [rotp trap].
    + now apply inv3_l.
    + eapply sp_trans; [apply sp_frac|].
      eapply sp_trans; [apply sp_add; [apply sp_refl|apply sp_frac]|].
      match goal with |- sp ?x ?y => replace x with y; [apply sp_refl|] end.
      unfold add3, motion_id; cbn [rotp trap]. generalize (inv3 (rotp a)); intros m. v3ring.
Qed.

Lemma point_action a b p : same_place D (move_point (motion_mul D a b) p) (move_point a (move_point b p)).
Proof.
  rewrite !move_point_eq, motion_mul_eq. cbn [rotp trap].
  eapply sp_trans; [apply sp_add; [apply sp_refl|apply sp_frac]|].
  match goal with |- sp ?x ?y => replace x with y; [apply sp_refl|] end.
  unfold add3, motion_id; cbn [rotp trap]. v3ring.
Qed.

Lemma motion_group_proof :
  (forall a b c, motion_mul D a (motion_mul D b c) = motion_mul D (motion_mul D a b) c) /\
  (forall a, same_motion D (motion_mul D motion_id a) a /\ same_motion D (motion_mul D a motion_id) a) /\
  (forall a, unimodular (rotp a) ->
     motion_mul D a (motion_inv D a) = motion_id /\ motion_mul D (motion_inv D a) a = motion_id) /\
  (forall a b p, same_place D (image (motion_mul D a b) p) (image a (image b p))) /\
  (forall a p, move_point a p = image a p) /\
  (forall a b, reduced D (motion_mul D a b)).
Proof.
  split; [exact motion_assoc|]. split; [intros a; split; [apply motion_id_l|apply motion_id_r]|].
  split; [intros a H; split; [now apply motion_inv_r|now apply motion_inv_l]|].
  split; [intros a b p; rewrite !image_eq, <- !move_point_eq; apply point_action|].
  split; [intros; rewrite move_point_eq; reflexivity|]. exact motion_mul_reduced.
Qed.

Lemma motion_equality_proof :
  (forall a b, motion_eqb D a b = true <-> same_motion D a b) /\
  (forall a, motion_eqb D a a = true) /\
  (forall a b, motion_eqb D a b = motion_eqb D b a) /\
  (forall a b c, motion_eqb D a b = true -> motion_eqb D b c = true -> motion_eqb D a c = true) /\
  (forall a b a' b', motion_eqb D a a' = true -> motion_eqb D b b' = true ->
     motion_eqb D (motion_mul D a b) (motion_mul D a' b') = true).
Proof.
  split; [exact motion_eqb_spec|]. split; [intros; apply motion_eqb_spec, same_motion_refl|].
  split.
  { intros a b. apply eq_true_iff_eq. rewrite !motion_eqb_spec. split; apply same_motion_sym. }
  split.
  { intros a b c. rewrite !motion_eqb_spec. apply same_motion_trans. }
  intros a b a' b'. rewrite !motion_eqb_spec. intros A B.
  rewrite (motion_mul_cong a b a' b') by auto. apply same_motion_refl.
Qed.
End Mod.

(** Vectors and axial vectors. *)
Lemma vector_action_proof a b v :
  move_vector a v = act3 (rotp a) v /\
  move_vector a (move_vector b v) = act3 (mul3 (rotp a) (rotp b)) v.
Proof. rewrite !move_vector_eq. split; auto. now rewrite act3_mul. Qed.

Lemma move_axial_eq a v : move_axial a v = act3 (scale3 (det3 (rotp a)) (rotp a)) v.
Proof.
  unfold move_axial. rewrite det3_model, move_vector_eq.
  destruct (1 =? det3 (rotp a)) eqn:E; cbn [negb].
  - apply Z.eqb_eq in E. rewrite <- E, scale3_1. reflexivity.
  - generalize (det3 (rotp a)). intros d. v3ring.
Qed.

(** A motion maps the cross product of two vectors like an axial vector, in
    metric-free form: R^T applied to the image of x cross y under the cofactor
    matrix.  For R orthogonal this is move_axial. *)
Lemma axial_cross_proof a x y : mul3 (trans3 (rotp a)) (rotp a) = I3 -> 
  (det3 (rotp a) = 1 \/ det3 (rotp a) = -1) ->
  move_axial a (cross3 x y) = cross3 (move_vector a x) (move_vector a y).
Proof.
  intros HO Hd. rewrite move_axial_eq, !move_vector_eq. set (R := rotp a) in *.
  assert (Hinv: inv3 R = trans3 R).
  { rewrite <- (mul3_1_l (inv3 R)), <- HO, <- mul3_assoc, inv3_r by auto. apply mul3_1_r. }
  assert (Hadj: scale3 (det3 R) R = trans3 (adj3 R)).
  { replace R with (trans3 (trans3 R)) at 2 by apply trans3_inv. rewrite <- Hinv. unfold inv3.
    assert (T: forall k m, trans3 (scale3 k m) = scale3 k (trans3 m)) by m3ring.
    rewrite T, scale3_scale, det_sq by auto. apply scale3_1. }
  rewrite Hadj. clear. v3ring.
Qed.
