From Verif Require Import Base MatModel MatSpec.
Local Open Scope Z_scope.

(** ** multiply_arrays for all dimensions *)
Lemma zat_upd l i v j : (i < length l)%nat -> zat (upd l i v) j = if (j =? i)%nat then v else zat l j.
Proof.
  intros H. unfold zat. destruct (Nat.eqb_spec j i) as [->|E].
  - now apply nth_upd_eq.
  - apply nth_upd_neq. auto.
Qed.

Lemma mul_kloop_len A B I M i j ks C : length (mul_kloop A B I M i j ks C) = length C.
Proof.
  unfold mul_kloop. revert C; induction ks as [|k ks IH]; intros C; simpl; auto.
  rewrite IH. apply upd_length.
Qed.

Lemma mul_kloop_at A B I M i j ks C q : (i * M + j < length C)%nat ->
  zat (mul_kloop A B I M i j ks C) q =
  if (q =? i * M + j)%nat
  then zat C q + fold_right Z.add 0 (map (fun k => zat A (i * I + k) * zat B (k * M + j)) ks)
  else zat C q.
Proof.
  unfold mul_kloop. revert C; induction ks as [|k ks IH]; intros C H; simpl.
  - destruct (q =? i * M + j)%nat; lia.
  - rewrite IH by (rewrite upd_length; auto). rewrite !zat_upd by auto.
    destruct (q =? i * M + j)%nat eqn:E; auto.
    apply Nat.eqb_eq in E. rewrite E. lia.
Qed.

Lemma fold_seq_sumn f n : fold_right Z.add 0 (map f (seq 0 n)) = sumn f n.
Proof.
  assert (G: forall s, fold_right Z.add 0 (map f (seq s n)) = sumn (fun k => f (s + k)%nat) n).
  { induction n as [|n IH]; intros s; simpl; auto.
    rewrite IH. clear IH. revert s. induction n as [|n IH]; intros s; simpl.
    - rewrite Nat.add_0_r. lia.
    - specialize (IH s). replace (S (s + n))%nat with (s + S n)%nat in * by lia.
      simpl in IH. lia. }
  rewrite G. reflexivity.
Qed.

Lemma mul_jloop_len A B I M i js C : length (mul_jloop A B I M i js C) = length C.
Proof.
  unfold mul_jloop. revert C; induction js as [|j js IH]; intros C; simpl; auto.
  rewrite IH. apply mul_kloop_len.
Qed.

Lemma mul_jloop_at A B I M i js C q : NoDup js -> (forall j, In j js -> i * M + j < length C)%nat ->
  zat (mul_jloop A B I M i js C) q =
  zat C q + (if existsb (fun j => (q =? i * M + j)%nat) js
             then sumn (fun k => zat A (i * I + k) * zat B (k * M + (q - i * M))) I else 0).
Proof.
  unfold mul_jloop. revert C; induction js as [|j js IH]; intros C Hnd H; simpl.
  - lia.
  - inversion Hnd; subst. rewrite IH; auto.
    2:{ intros; rewrite mul_kloop_len; apply H; simpl; auto. }
    rewrite mul_kloop_at by (apply H; simpl; auto). rewrite fold_seq_sumn.
    destruct (Nat.eqb_spec q (i * M + j)) as [->|E]; simpl.
    + replace (i * M + j - i * M)%nat with j by lia.
      destruct (existsb (fun j0 => (i * M + j =? i * M + j0)%nat) js) eqn:F; [|lia].
      apply existsb_exists in F. destruct F as (x & Hx & Ex). apply Nat.eqb_eq in Ex.
      assert (x = j) by lia. subst. contradiction.
    + reflexivity.
Qed.

Lemma mul_iloop_at A B I M is C q : NoDup is -> (0 < M)%nat ->
  (forall i, In i is -> i * M + M <= length C)%nat ->
  zat (mul_iloop A B I M is C) q =
  zat C q + (if existsb (Nat.eqb (q / M)) is
             then sumn (fun k => zat A ((q / M) * I + k) * zat B (k * M + q mod M)) I else 0).
Proof.
  unfold mul_iloop. revert C; induction is as [|i is IH]; intros C Hnd HM H; simpl.
  - lia.
  - inversion Hnd; subst. rewrite IH; auto.
    2:{ intros i' Hi. rewrite mul_jloop_len. apply H; simpl; auto. }
    rewrite mul_jloop_at.
    2:{ apply seq_NoDup. }
    2:{ intros j Hj. apply in_seq in Hj. specialize (H i (or_introl eq_refl)). lia. }
    destruct (Nat.eqb_spec (q / M) i) as [E|E]; simpl.
    + subst i.
      replace (existsb (Nat.eqb (q / M)) is) with false.
      2:{ symmetry. apply not_true_is_false. intros F. apply existsb_exists in F.
          destruct F as (x & Hx & Ex). apply Nat.eqb_eq in Ex. subst. contradiction. }
      pose proof (Nat.div_mod q M ltac:(lia)). pose proof (Nat.mod_upper_bound q M ltac:(lia)).
      replace (existsb (fun j => (q =? q / M * M + j)%nat) (seq 0 M)) with true.
      2:{ symmetry. apply existsb_exists. exists (q mod M)%nat. split; [apply in_seq; lia|].
          apply Nat.eqb_eq. lia. }
      replace (q - q / M * M)%nat with (q mod M)%nat by lia. lia.
    + replace (existsb (fun j => (q =? i * M + j)%nat) (seq 0 M)) with false; [lia|].
      symmetry. apply not_true_is_false. intros F. apply existsb_exists in F.
      destruct F as (x & Hx & Ex). apply Nat.eqb_eq in Ex. apply in_seq in Hx.
      apply E. subst q. rewrite Nat.div_add_l by lia. rewrite Nat.div_small by lia. lia.
Qed.

Lemma mul_iloop_len A B I M is C : length (mul_iloop A B I M is C) = length C.
Proof.
  unfold mul_iloop. revert C; induction is as [|j js IH]; intros C; simpl; auto.
  rewrite IH. apply mul_jloop_len.
Qed.

Lemma multiply_arrays_proof N I M A B : 
  length (multiply_arrays N I M A B) = (N * M)%nat /\
  forall i j, (i < N)%nat -> (j < M)%nat ->
    nth (i * M + j) (multiply_arrays N I M A B) 0 =
    sumn (fun k => nth (i * I + k) A 0 * nth (k * M + j) B 0) I.
Proof.
  split.
  - unfold multiply_arrays. rewrite mul_iloop_len. apply repeat_length.
  - intros i j Hi Hj. change (nth (i * M + j) (multiply_arrays N I M A B) 0)
      with (zat (multiply_arrays N I M A B) (i * M + j)).
    unfold multiply_arrays. rewrite mul_iloop_at.
    + rewrite Nat.div_add_l by lia. rewrite Nat.div_small by lia. rewrite Nat.add_0_r.
      rewrite Nat.add_comm, Nat.mod_add by lia. rewrite Nat.mod_small by lia.
      replace (existsb (Nat.eqb i) (seq 0 N)) with true.
      2:{ symmetry. apply existsb_exists. exists i. split; [apply in_seq; lia|apply Nat.eqb_refl]. }
      unfold zat at 1. rewrite nth_repeat. reflexivity.
    + apply seq_NoDup.
    + lia.
    + intros x Hx. apply in_seq in Hx. rewrite repeat_length. nia.
Qed.

(** ** The 3x3 case *)
Ltac mcbn := cbn -[Z.add Z.mul Z.sub Z.opp Z.quot].

Lemma mul33_model a b : multiply_matrix_matrix 3 (l9 a) (l9 b) = l9 (mul3 a b).
Proof.
  unfold multiply_matrix_matrix, multiply_arrays, mul_iloop, mul_jloop, mul_kloop, l9, zat.
  mcbn. unfold mul3; simpl. repeat (f_equal; try ring).
Qed.
Lemma mul31_model a x : multiply_matrix_vector 3 (l9 a) (l3 x) = l3 (act3 a x).
Proof.
  unfold multiply_matrix_vector, multiply_arrays, mul_iloop, mul_jloop, mul_kloop, l9, l3, zat.
  mcbn. unfold act3; simpl. repeat (f_equal; try ring).
Qed.
Lemma mul13_model a x : multiply_vector_matrix 3 (l3 x) (l9 a) = l3 (act3 (trans3 a) x).
Proof.
  unfold multiply_vector_matrix, multiply_arrays, mul_iloop, mul_jloop, mul_kloop, l9, l3, zat.
  mcbn. unfold act3; simpl. repeat (f_equal; try ring).
Qed.
Lemma trace3_model a : trace 3 (l9 a) = tr3 a.
Proof. unfold trace, l9, zat. mcbn. unfold tr3. ring. Qed.
Lemma det3_model a : matrix_determinant (l9 a) 3 = det3 a.
Proof.
  unfold l9, det3, row0, row1, row2, dot3, cross3. cbn -[Z.add Z.mul Z.sub Z.opp].
  unfold matrix_cofactor, array_cofactor, zat. cbn -[Z.add Z.mul Z.sub Z.opp]. ring.
Qed.

Definition adj3 (a : m3) : m3 :=
  M3 (m11 a * m22 a - m12 a * m21 a) (m02 a * m21 a - m01 a * m22 a) (m01 a * m12 a - m02 a * m11 a)
     (m12 a * m20 a - m10 a * m22 a) (m00 a * m22 a - m02 a * m20 a) (m02 a * m10 a - m00 a * m12 a)
     (m10 a * m21 a - m11 a * m20 a) (m01 a * m20 a - m00 a * m21 a) (m00 a * m11 a - m01 a * m10 a).

Lemma adj3_model a : matrix_adjoint (l9 a) 3 = l9 (adj3 a).
Proof.
  unfold matrix_adjoint, matrix_cofactor, array_cofactor, l9, zat.
  cbn -[Z.add Z.mul Z.sub Z.opp Z.pow].
  unfold adj3; simpl m00; simpl m01; simpl m02; simpl m10; simpl m11; simpl m12; simpl m20; simpl m21; simpl m22.
  unfold zat; cbn -[Z.add Z.mul Z.sub Z.opp].
  repeat (f_equal; try ring).
Qed.

Lemma m3_ext a b :
  m00 a = m00 b -> m01 a = m01 b -> m02 a = m02 b -> m10 a = m10 b -> m11 a = m11 b -> m12 a = m12 b ->
  m20 a = m20 b -> m21 a = m21 b -> m22 a = m22 b -> a = b.
Proof. destruct a, b; simpl; intros; subst; reflexivity. Qed.
Lemma v3_ext a b : v0 a = v0 b -> v1 a = v1 b -> v2 a = v2 b -> a = b.
Proof. destruct a, b; simpl; intros; subst; reflexivity. Qed.

Ltac m3cbn := unfold tr3, det3, dot3, cross3, row0, row1, row2, scale3, trans3, adj3, act3, mul3, I3;
  cbn [m00 m01 m02 m10 m11 m12 m20 m21 m22 v0 v1 v2].
Ltac m3ring := intros; apply m3_ext; m3cbn; ring.
Ltac v3ring := intros; apply v3_ext; m3cbn; ring.

Lemma mul3_assoc a b c : mul3 a (mul3 b c) = mul3 (mul3 a b) c. Proof. m3ring. Qed.
Lemma mul3_1_l a : mul3 I3 a = a. Proof. m3ring. Qed.
Lemma mul3_1_r a : mul3 a I3 = a. Proof. m3ring. Qed.
Lemma act3_mul a b x : act3 (mul3 a b) x = act3 a (act3 b x). Proof. v3ring. Qed.
Lemma act3_1 x : act3 I3 x = x. Proof. v3ring. Qed.
Lemma det3_mul a b : det3 (mul3 a b) = det3 a * det3 b.
Proof. unfold det3, dot3, cross3, row0, row1, row2, mul3; simpl; ring. Qed.
Lemma det3_1 : det3 I3 = 1. Proof. reflexivity. Qed.
Lemma adj3_r a : mul3 a (adj3 a) = scale3 (det3 a) I3.
Proof. apply m3_ext; m3cbn; ring. Qed.
Lemma adj3_l a : mul3 (adj3 a) a = scale3 (det3 a) I3.
Proof. apply m3_ext; m3cbn; ring. Qed.
Lemma det3_trans a : det3 (trans3 a) = det3 a.
Proof. unfold det3, dot3, cross3, row0, row1, row2, trans3; simpl; ring. Qed.
Lemma trans3_mul a b : trans3 (mul3 a b) = mul3 (trans3 b) (trans3 a). Proof. m3ring. Qed.
Lemma trans3_inv a : trans3 (trans3 a) = a. Proof. destruct a; reflexivity. Qed.
Lemma dot3_trans a x y : dot3 (act3 (trans3 a) x) y = dot3 x (act3 a y).
Proof. unfold dot3, act3, trans3; simpl; ring. Qed.

Lemma l9_inj a b : l9 a = l9 b -> a = b.
Proof. unfold l9; intros H. inversion H. now apply m3_ext. Qed.
Lemma l3_inj a b : l3 a = l3 b -> a = b.
Proof. unfold l3; intros H. inversion H. now apply v3_ext. Qed.

Definition inv3 (a : m3) : m3 := scale3 (det3 a) (adj3 a).

Lemma quot_unit x d : (d = 1 \/ d = -1) -> Z.quot x d = d * x.
Proof.
  intros [->| ->].
  - rewrite Z.quot_1_r. lia.
  - change (-1) with (- (1)). rewrite Z.quot_opp_r by lia. rewrite Z.quot_1_r. lia.
Qed.

Lemma inverse3_model a : (det3 a = 1 \/ det3 a = -1) ->
  matrix_inverse (l9 a) 3 = Some (l9 (inv3 a)).
Proof.
  intros H. unfold matrix_inverse. rewrite det3_model, adj3_model.
  replace (0 <? Z.abs (det3 a)) with true by (destruct H as [->| ->]; reflexivity).
  f_equal. unfold inv3, l9, scale3. cbn [map m00 m01 m02 m10 m11 m12 m20 m21 m22].
  rewrite !quot_unit by auto. reflexivity.
Qed.

Lemma det_sq a : (det3 a = 1 \/ det3 a = -1) -> det3 a * det3 a = 1.
Proof. intros [->| ->]; reflexivity. Qed.

Lemma scale3_mul_r k a b : mul3 a (scale3 k b) = scale3 k (mul3 a b). Proof. m3ring. Qed.
Lemma scale3_mul_l k a b : mul3 (scale3 k a) b = scale3 k (mul3 a b). Proof. m3ring. Qed.
Lemma scale3_scale j k a : scale3 j (scale3 k a) = scale3 (j * k) a. Proof. m3ring. Qed.
Lemma scale3_1 a : scale3 1 a = a. Proof. m3ring. Qed.

Lemma inv3_r a : (det3 a = 1 \/ det3 a = -1) -> mul3 a (inv3 a) = I3.
Proof. intros H. unfold inv3. rewrite scale3_mul_r, adj3_r, scale3_scale, det_sq by auto. apply scale3_1. Qed.
Lemma inv3_l a : (det3 a = 1 \/ det3 a = -1) -> mul3 (inv3 a) a = I3.
Proof. intros H. unfold inv3. rewrite scale3_mul_l, adj3_l, scale3_scale, det_sq by auto. apply scale3_1. Qed.
Lemma det3_inv a : (det3 a = 1 \/ det3 a = -1) -> det3 (inv3 a) = det3 a.
Proof.
  intros H. pose proof (f_equal det3 (inv3_r a H)) as E. rewrite det3_mul, det3_1 in E.
  destruct H as [H|H]; rewrite H in *; lia.
Qed.

Lemma transpose33_model a : array_transpose 3 3 (l9 a) = l9 (trans3 a).
Proof. unfold array_transpose, transpose_jloop, l9, zat. mcbn. reflexivity. Qed.
Lemma transpose_inplace33_model a : matrix_transpose_inplace 3 (l9 a) = Ok (l9 (trans3 a)).
Proof. unfold matrix_transpose_inplace, swap_step, l9, rd, wr. cbn. reflexivity. Qed.

(** ** Property lemmas *)
Lemma matrix_algebra_proof a b :
  multiply_matrix_matrix 3 (l9 a) (l9 b) = l9 (mul3 a b) /\
  matrix_determinant (l9 a) 3 = det3 a /\
  matrix_determinant (multiply_matrix_matrix 3 (l9 a) (l9 b)) 3 =
    matrix_determinant (l9 a) 3 * matrix_determinant (l9 b) 3 /\
  multiply_matrix_matrix 3 (l9 a) (matrix_adjoint (l9 a) 3) = l9 (scale3 (det3 a) I3) /\
  multiply_matrix_matrix 3 (matrix_adjoint (l9 a) 3) (l9 a) = l9 (scale3 (det3 a) I3).
Proof.
  rewrite mul33_model, !det3_model, adj3_model, !mul33_model, det3_mul, adj3_r, adj3_l. auto.
Qed.

Lemma matrix_inverse_unimodular_proof a : (det3 a = 1 \/ det3 a = -1) ->
  exists b, matrix_inverse (l9 a) 3 = Some (l9 b) /\ mul3 a b = I3 /\ mul3 b a = I3.
Proof.
  intros H. exists (inv3 a). rewrite inverse3_model by auto. auto using inv3_r, inv3_l.
Qed.

Lemma matrix_inverse_singular_proof a : matrix_inverse (l9 a) 3 = None <-> det3 a = 0.
Proof.
  unfold matrix_inverse. rewrite det3_model. destruct (0 <? Z.abs (det3 a)) eqn:E.
  - split; [discriminate|]. intros H. rewrite H in E. discriminate.
  - split; auto. intros _. apply Z.ltb_ge in E. lia.
Qed.

(** The inverse is exact whenever an integer inverse exists, and only then. *)
Lemma matrix_inverse_exact_iff_proof a :
  (exists b, matrix_inverse (l9 a) 3 = Some (l9 b) /\ mul3 a b = I3) <-> (det3 a = 1 \/ det3 a = -1).
Proof.
  split.
  - intros (b & _ & E). apply (f_equal det3) in E. rewrite det3_mul, det3_1 in E.
    apply Z.mul_eq_1 in E. exact E.
  - intros H. destruct (matrix_inverse_unimodular_proof a H) as (b & H1 & H2 & _). eauto.
Qed.

Lemma transpose_proof a :
  array_transpose 3 3 (l9 a) = l9 (trans3 a) /\
  matrix_transpose_inplace 3 (l9 a) = Ok (l9 (trans3 a)).
Proof. split; [apply transpose33_model | apply transpose_inplace33_model]. Qed.

Lemma transpose_inplace_refuted_proof :
  matrix_transpose_inplace 2 [1;2;3;4] = Ok [1;4;3;2] /\ array_transpose 2 2 [1;2;3;4] = [1;3;2;4].
Proof. split; reflexivity. Qed.
