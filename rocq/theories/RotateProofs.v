(** Proofs about rotating data. *)
From Coq Require Import Ring.
From Verif Require Import Base Array2Model Array2Proofs MatModel MatSpec MatProofs RotateModel RotateSpec.
Local Open Scope outcome_scope.

Section Blocks.
Context {T : Type}.
Notation rd_block := (rd_block T). Notation wr_block := (wr_block T). Notation blocks := (blocks T).

Lemma rd_at (p b s : list T) : rd_block (p ++ b ++ s) (length p) (length b) = Ok b.
Proof.
  unfold RotateModel.rd_block. rewrite !app_length. replace (_ <=? _) with true by (symmetry; apply Nat.leb_le; lia).
  rewrite skipn_app, skipn_all, Nat.sub_diag. cbn [app skipn]. rewrite firstn_app, firstn_all, Nat.sub_diag. cbn [firstn]. now rewrite app_nil_r.
Qed.
Lemma wr_at (p b b' s : list T) : length b' = length b -> wr_block (p ++ b ++ s) (length p) b' = Ok (p ++ b' ++ s).
Proof.
  intros E. unfold RotateModel.wr_block. rewrite !app_length, E. replace (_ <=? _) with true by (symmetry; apply Nat.leb_le; lia).
  rewrite firstn_app, firstn_all, Nat.sub_diag. cbn [firstn]. rewrite app_nil_r. f_equal. f_equal. f_equal.
  rewrite app_assoc. replace (length p + length b) with (length (p ++ b)) by now rewrite app_length.
  now rewrite skipn_app, skipn_all, Nat.sub_diag.
Qed.

Lemma blocks_ok {A} (enc : A -> list T) size f g (H : forall a, length (enc a) = size) (Hf : forall a, f (enc a) = enc (g a)) :
  forall l p s k, foldM (fun (st : nat * list T) (_ : nat) =>
    let (o, row) := st in let* x := rd_block row o size in let* row := wr_block row o (f x) in Ok (o + size, row))
    (seq k (length l)) (length p, p ++ flat_map enc l ++ s) =
  Ok (length p + length l * size, p ++ flat_map enc (map g l) ++ s).
Proof.
  induction l as [|a l IH]; intros p s k; cbn [length seq foldM flat_map map app].
  - rewrite Nat.mul_0_l, Nat.add_0_r. reflexivity.
  - rewrite <- !app_assoc. rewrite <- (H a) at 1. rewrite rd_at. cbn [bind]. rewrite Hf, wr_at by now rewrite !H. cbn [bind].
    specialize (IH (p ++ enc (g a)) s (S k)). rewrite <- !app_assoc in IH. rewrite app_length, H in IH. rewrite IH. f_equal. f_equal. lia.
Qed.

Lemma blocks_at {A} (enc : A -> list T) size f g (H : forall a, length (enc a) = size) (Hf : forall a, f (enc a) = enc (g a)) n o l p s :
  n = length l -> o = length p -> blocks n size f (o, p ++ flat_map enc l ++ s) = Ok (o + length l * size, p ++ flat_map enc (map g l) ++ s).
Proof. intros -> ->. apply (blocks_ok enc size f g H Hf). Qed.

Lemma flat_len {A} (enc : A -> list T) size (H : forall a, length (enc a) = size) l : length (flat_map enc l) = length l * size.
Proof. induction l as [|a l IH]; [reflexivity|]. cbn [flat_map length]. rewrite app_length, H, IH. lia. Qed.
Lemma vec_len (v : vec T) : length (vec_list T v) = 3. Proof. now destruct v as [[a b] c]. Qed.
Lemma mat_len (m : mat T) : length (mat_list T m) = 9.
Proof. destruct m as [[a b] c]. unfold mat_list. now rewrite !app_length, !vec_len. Qed.

Lemma branch_len e0 e1 e2 b : shaped T e0 e1 e2 b -> length (branch_list T b) = e0 + e1 + e2.
Proof.
  intros (A & B & C & D). unfold branch_list. rewrite !app_length, (flat_len _ 3 vec_len), (flat_len _ 9 mat_len), A, B, C, D.
  pose proof (Nat.div_mod_eq e1 3). pose proof (Nat.div_mod_eq e2 9). lia.
Qed.

Lemma branches_ok fv fm gv gm e0 e1 e2 (Hv : forall v, fv (vec_list T v) = vec_list T (gv v)) (Hm : forall m, fm (mat_list T m) = mat_list T (gm m)) :
  forall bs p k, Forall (shaped T e0 e1 e2) bs -> length p = k * (e0 + e1 + e2) ->
  foldM (fun row b =>
    let* st := blocks (e1 / 3) 3 fv (b * (e0 + e1 + e2) + e0, row) in
    let* st := blocks (e2 / 9) 9 fm st in
    Ok (snd st)) (seq k (length bs)) (p ++ row_list T bs) = Ok (p ++ row_list T (map (map_branch T gv gm) bs)).
Proof.
  induction bs as [|b bs IH]; intros p k F Hp; cbn [length seq foldM map]; [reflexivity|].
  apply Forall_cons_iff in F. destruct F as [Fb F].
  unfold row_list. cbn [flat_map]. fold (row_list T bs). fold (row_list T (map (map_branch T gv gm) bs)).
  pose proof Fb as (A & B & C & D). unfold branch_list at 1. rewrite <- !app_assoc. rewrite (app_assoc p).
  rewrite (blocks_at (vec_list T) 3 fv gv vec_len Hv); [|congruence|rewrite app_length; lia]. cbn [bind].
  rewrite (app_assoc (p ++ scalars T b)).
  rewrite (blocks_at (mat_list T) 9 fm gm mat_len Hm); [|congruence|rewrite !app_length, (flat_len _ 3 vec_len), map_length; lia]. cbn [bind snd].
  assert (Fb' : shaped T e0 e1 e2 (map_branch T gv gm b)) by (unfold shaped, map_branch; cbn [scalars vectors matrices rest]; rewrite !map_length; tauto).
  replace (((p ++ scalars T b) ++ flat_map (vec_list T) (map gv (vectors T b))) ++ flat_map (mat_list T) (map gm (matrices T b)) ++ rest T b ++ row_list T bs)
    with ((p ++ branch_list T (map_branch T gv gm b)) ++ row_list T bs)
    by (unfold branch_list; cbn [map_branch scalars vectors matrices rest]; now rewrite <- !app_assoc).
  rewrite IH; [|assumption|rewrite app_length, (branch_len _ _ _ _ Fb'), Hp; lia].
  now rewrite <- app_assoc.
Qed.
End Blocks.

Section Ring.
Variables (T : Type) (zero one : T) (plus times minus : T -> T -> T) (opp : T -> T) (of_int : Z -> T).
Hypothesis RT : ring_theory zero one plus times minus opp eq.
Hypothesis HM : forall a b, of_int (a * b) = times (of_int a) (of_int b).
Hypothesis HP : forall a b, of_int (a + b) = plus (of_int a) (of_int b).
Hypothesis H1 : of_int 1 = one.
Hypothesis H0 : of_int 0 = zero.
Add Ring TR : RT.
Notation "x + y" := (plus x y). Notation "x * y" := (times x y).
Notation act := (act T plus times of_int). Notation vec_list := (vec_list T). Notation mat_list := (mat_list T).
Notation mat_left := (mat_left T plus times of_int). Notation mat_right := (mat_right T plus times of_int).

Lemma mul_vec_ok (R : m3) v : mul_mat_vec T zero plus times (embed T of_int (l9 R)) (vec_list v) = vec_list (act R v).
Proof.
  destruct v as [[a b] c], R. unfold mul_mat_vec, mul_arrays, embed, l9.
  cbn [seq flat_map map app fold_left nth Nat.add Nat.mul MatSpec.m00 MatSpec.m01 MatSpec.m02 MatSpec.m10 MatSpec.m11 MatSpec.m12 MatSpec.m20 MatSpec.m21 MatSpec.m22
   vec_list RotateSpec.vec_list RotateSpec.act dot int_vec row0 row1 row2 v0 v1 v2].
  repeat (apply (f_equal2 (@cons T)); [ring|]); reflexivity.
Qed.
Lemma mul_right_ok (m : mat T) (R : m3) : mul_mat_mat T zero plus times (mat_list m) (embed T of_int (l9 R)) = mat_list (mat_right m R).
Proof.
  destruct m as [[[[a b] c] [[d e] f]] [[g h] i]], R. unfold mul_mat_mat, mul_arrays, embed, l9.
  cbn [seq flat_map map app fold_left nth Nat.add Nat.mul MatSpec.m00 MatSpec.m01 MatSpec.m02 MatSpec.m10 MatSpec.m11 MatSpec.m12 MatSpec.m20 MatSpec.m21 MatSpec.m22
   RotateSpec.vec_list RotateSpec.mat_list RotateSpec.act RotateSpec.mat_right trans3 dot int_vec row0 row1 row2 v0 v1 v2].
  repeat (apply (f_equal2 (@cons T)); [ring|]); reflexivity.
Qed.
Lemma mul_left_ok (R : m3) (m : mat T) : mul_mat_mat T zero plus times (embed T of_int (l9 R)) (mat_list m) = mat_list (mat_left R m).
Proof.
  destruct m as [[[[a b] c] [[d e] f]] [[g h] i]], R. unfold mul_mat_mat, mul_arrays, embed, l9.
  cbn [seq flat_map map app fold_left nth Nat.add Nat.mul MatSpec.m00 MatSpec.m01 MatSpec.m02 MatSpec.m10 MatSpec.m11 MatSpec.m12 MatSpec.m20 MatSpec.m21 MatSpec.m22
   RotateSpec.vec_list RotateSpec.mat_list RotateSpec.act RotateSpec.mat_right RotateSpec.mat_left tmat trans3 dot int_vec row0 row1 row2 v0 v1 v2].
  repeat (apply (f_equal2 (@cons T)); [ring|]); reflexivity.
Qed.
Lemma transpose9_ok R : transpose9 (l9 R) = l9 (trans3 R).
Proof. reflexivity. Qed.

Lemma scale_ok k v : map (times k) (vec_list v) = vec_list (scale T times k v).
Proof. now destruct v as [[a b] c]. Qed.

(** What each kind of data becomes. *)
Definition gv (k : rotates) (R Ri : m3) (v : vec T) : vec T :=
  match k with AsReal => act R v | AsRecip => act (trans3 R) v | AsAxial => scale T times (of_int (det3 R)) (act Ri v) end.
Definition gm (k : rotates) (R Ri : m3) (m : mat T) : mat T :=
  match k with
  | AsReal => mat_left R (mat_right m Ri)
  | AsRecip => mat_left (trans3 R) (mat_right m (trans3 Ri))
  | AsAxial => mat_left Ri (mat_right m R) end.
Lemma fv_ok k R Ri v : fv_of T zero plus times of_int k (l9 R) (l9 Ri) (vec_list v) = vec_list (gv k R Ri v).
Proof.
  destruct k; cbn [fv_of gv]; unfold real_vector, recip_vector, axial_vector.
  - apply mul_vec_ok. - rewrite transpose9_ok. apply mul_vec_ok.
  - rewrite mul_vec_ok, scale_ok, det3_model. reflexivity.
Qed.
Lemma fm_ok k R Ri m : fm_of T zero plus times of_int k (l9 R) (l9 Ri) (mat_list m) = mat_list (gm k R Ri m).
Proof.
  destruct k; cbn [fm_of gm]; unfold real_matrix, recip_matrix, axial_matrix; rewrite ?transpose9_ok, mul_right_ok, mul_left_ok; reflexivity.
Qed.
Lemma act_one v : act I3 v = v.
Proof.
  destruct v as [[a b] c]. unfold RotateSpec.act, I3, int_vec, row0, row1, row2, dot.
  cbn [MatSpec.m00 MatSpec.m01 MatSpec.m02 MatSpec.m10 MatSpec.m11 MatSpec.m12 MatSpec.m20 MatSpec.m21 MatSpec.m22 v0 v1 v2].
  rewrite H0, H1. f_equal; [f_equal|]; ring.
Qed.
Lemma right_one m : mat_right m I3 = m.
Proof. destruct m as [[a b] c]. unfold RotateSpec.mat_right. change (trans3 I3) with I3. now rewrite !act_one. Qed.
Lemma left_one m : mat_left I3 m = m.
Proof. unfold RotateSpec.mat_left. change (trans3 I3) with I3. rewrite right_one. now destruct m as [[[[a b] c] [[d e] f]] [[g h] i]]. Qed.
Lemma mul_I3 R : mul3 I3 R = R.
Proof. destruct R. unfold mul3, I3. cbn -[Z.mul Z.add]. f_equal; lia. Qed.
Lemma gv_one k v : gv k I3 I3 v = v.
Proof.
  destruct k; cbn [gv]; change (trans3 I3) with I3; rewrite act_one; try reflexivity.
  change (det3 I3) with 1%Z. rewrite H1. destruct v as [[a b] c]. unfold scale. f_equal; [f_equal|]; ring.
Qed.
Lemma gm_one k m : gm k I3 I3 m = m.
Proof. destruct k; cbn [gm]; change (trans3 I3) with I3; now rewrite right_one, left_one. Qed.
Lemma branch_one k b : map_branch T (gv k I3 I3) (gm k I3 I3) b = b.
Proof.
  destruct b as [s v m e]. unfold map_branch. cbn [scalars vectors matrices rest]. f_equal.
  - rewrite <- (map_id v) at 2. apply map_ext. intros a. apply gv_one.
  - rewrite <- (map_id m) at 2. apply map_ext. intros a. apply gm_one.
Qed.
Lemma is_one R : list_eqb identity9 (l9 R) = true -> R = I3.
Proof.
  unfold list_eqb. destruct (list_eq_dec Z.eq_dec identity9 (l9 R)) as [E|]; [|discriminate]. intros _. destruct R.
  unfold l9, identity9 in E. cbn in E. injection E. intros. now subst.
Qed.

Lemma rotate_all_ok k branches e0 e1 e2 ops r invr rows :
  shaped_rows T branches e0 e1 e2 rows -> chosen_inverse ops r invr (length rows) -> e1 / 3 <> 0 \/ e2 / 9 <> 0 ->
  exists rows', rotate_all T zero plus times of_int k branches (e0, e1, e2) (map l9 ops) r invr (map (row_list T) rows) = Ok (Some (map (row_list T) rows')) /\
    length rows' = length rows /\
    forall i R Ri bs, chosen ops r invr i R Ri -> nth_error rows i = Some bs -> nth_error rows' i = Some (map (map_branch T (gv k R Ri) (gm k R Ri)) bs).
Proof.
  intros Hs Hc Hn.
  pose (g := fun i => match nth_error rows i, nth_error r i, nth_error invr i with
    | Some bs, Some a, Some b => match nth_error ops a, nth_error ops b with
       | Some R, Some Ri => map (map_branch T (gv k R Ri) (gm k R Ri)) bs | _, _ => [] end
    | _, _, _ => [] end).
  exists (map g (seq 0 (length rows))). split; [|split].
  - unfold rotate_all, counts. replace ((e1 / 3 =? 0) && (e2 / 9 =? 0)) with false
      by (symmetry; apply andb_false_iff; destruct Hn as [Hn|Hn]; [left|right]; apply Nat.eqb_neq; assumption).
    rewrite map_length. rewrite (mapM_ok _ (fun i => row_list T (g i))).
    { cbn [bind]. now rewrite map_map. }
    intros i Hi. apply in_seq in Hi. destruct (Hc i) as (R & Ri & (a & b & Ea & Eb & EA & EB) & E); [lia|].
    destruct (nth_error rows i) as [bs|] eqn:Er; [|apply nth_error_None in Er; lia].
    unfold rd. rewrite nth_error_map, Er. cbn [option_map bind]. unfold rotate_row, rd. rewrite Ea. cbn [bind].
    unfold get_op. rewrite nth_error_map, EA. cbn [option_map bind].
    unfold g. rewrite Er, Ea, Eb, EA, EB.
    destruct (list_eqb identity9 (l9 R)) eqn:El.
    + apply is_one in El. subst R. rewrite mul_I3 in E. subst Ri.
      rewrite (map_ext _ (fun x => x)) by apply branch_one. now rewrite map_id.
    + cbn [bind]. rewrite nth_error_map, EB. cbn [option_map bind]. unfold rotate_branches.
      apply Forall_forall with (x := bs) in Hs; [|now apply nth_error_In in Er]. destruct Hs as [Hb Hs]. rewrite <- Hb.
      exact (branches_ok _ _ (gv k R Ri) (gm k R Ri) e0 e1 e2 (fv_ok k R Ri) (fm_ok k R Ri) bs [] 0 Hs eq_refl).
  - now rewrite map_length, seq_length.
  - intros i R Ri bs (a & b & Ea & Eb & EA & EB) Er.
    assert (i < length rows) by (apply nth_error_Some; congruence).
    rewrite nth_error_map. replace (nth_error (seq 0 (length rows)) i) with (Some i).
    + cbn [option_map]. unfold g. now rewrite Er, Ea, Eb, EA, EB.
    + symmetry. rewrite (nth_error_nth' _ 0) by now rewrite seq_length. now rewrite seq_nth.
Qed.

(** Scalar products. *)
Lemma act_dot (A B : m3) v w : mul3 (trans3 A) (trans3 B) = I3 -> dot T plus times (act A v) (act (trans3 B) w) = dot T plus times v w.
Proof.
  intros E. destruct v as [[a b] c], w as [[d e] f], A as [a00 a01 a02 a10 a11 a12 a20 a21 a22], B as [b00 b01 b02 b10 b11 b12 b20 b21 b22].
  unfold mul3, trans3, I3 in E. cbn -[Z.mul Z.add] in E. injection E. clear E. intros E22 E21 E20 E12 E11 E10 E02 E01 E00.
  apply (f_equal of_int) in E00, E01, E02, E10, E11, E12, E20, E21, E22. rewrite !HP, !HM, ?H0, ?H1 in *.
  unfold RotateSpec.act, trans3, int_vec, row0, row1, row2, dot.
  cbn [MatSpec.m00 MatSpec.m01 MatSpec.m02 MatSpec.m10 MatSpec.m11 MatSpec.m12 MatSpec.m20 MatSpec.m21 MatSpec.m22 v0 v1 v2].
  transitivity (a * ((of_int a00 * of_int b00 + of_int a10 * of_int b01 + of_int a20 * of_int b02) * d + (of_int a00 * of_int b10 + of_int a10 * of_int b11 + of_int a20 * of_int b12) * e + (of_int a00 * of_int b20 + of_int a10 * of_int b21 + of_int a20 * of_int b22) * f) + b * ((of_int a01 * of_int b00 + of_int a11 * of_int b01 + of_int a21 * of_int b02) * d + (of_int a01 * of_int b10 + of_int a11 * of_int b11 + of_int a21 * of_int b12) * e + (of_int a01 * of_int b20 + of_int a11 * of_int b21 + of_int a21 * of_int b22) * f) + c * ((of_int a02 * of_int b00 + of_int a12 * of_int b01 + of_int a22 * of_int b02) * d + (of_int a02 * of_int b10 + of_int a12 * of_int b11 + of_int a22 * of_int b12) * e + (of_int a02 * of_int b20 + of_int a12 * of_int b21 + of_int a22 * of_int b22) * f)); [ring|].
  rewrite E00, E01, E02, E10, E11, E12, E20, E21, E22. ring.
Qed.

Lemma trans_mul A B : mul3 A B = I3 -> mul3 (trans3 B) (trans3 A) = I3.
Proof.
  intros E. destruct A, B. unfold mul3, trans3, I3 in *. cbn -[Z.mul Z.add] in *. injection E. clear E. intros. f_equal; lia.
Qed.
Lemma scale_dot k v w : dot T plus times (scale T times k v) w = k * dot T plus times v w.
Proof. destruct v as [[a b] c], w as [[d e] f]. unfold scale, dot. ring. Qed.
Lemma axial_recip_dot R Ri v w : mul3 R Ri = I3 -> dot T plus times (gv AsAxial R Ri v) (gv AsRecip R Ri w) = of_int (det3 R) * dot T plus times v w.
Proof. intros E. cbn [gv]. rewrite scale_dot, act_dot; [reflexivity|]. now apply trans_mul. Qed.

(** One vector per row. *)
Definition one_vector (v : vec T) : list (branch T) := [Branch T [] [v] [] []].
Lemma one_ok k ops r invr v i R Ri : chosen ops [r] [invr] i R Ri -> mul3 R Ri = I3 ->
  rotate_all T zero plus times of_int k 1 (0, 3, 0) (map l9 ops) [r] [invr] [vec_list v] = Ok (Some [vec_list (gv k R Ri v)]).
Proof.
  intros Hc E. assert (Hi : i = 0). { destruct Hc as (a & b & Ea & _). destruct i as [|[|i]]; [reflexivity|discriminate..]. } subst i.
  destruct (rotate_all_ok k 1 0 3 0 ops [r] [invr] [one_vector v]) as (rows' & E' & Hl & Hr).
  - constructor; [|constructor]. split; [reflexivity|]. constructor; [|constructor]. unfold shaped. cbn. auto.
  - intros j Hj. cbn in Hj. assert (j = 0) by lia. subst j. now exists R, Ri.
  - left. discriminate.
  - specialize (Hr 0 R Ri (one_vector v) Hc eq_refl). destruct rows' as [|a [|b rows']]; try discriminate. cbn in Hr. injection Hr as ->.
    replace (map (row_list T) [one_vector v]) with [vec_list v] in E' by (destruct v as [[a b] c]; reflexivity).
    rewrite E'. f_equal. f_equal. cbn [map]. f_equal. destruct (gv k R Ri v) as [[a b] c] eqn:Eg. unfold row_list, branch_list, map_branch. cbn. now rewrite Eg.
Qed.
Lemma scalar_products_proof ops r invr v w R Ri : chosen ops [r] [invr] 0 R Ri -> mul3 R Ri = I3 ->
  exists v' w', rotate_all T zero plus times of_int AsAxial 1 (0, 3, 0) (map l9 ops) [r] [invr] [vec_list v] = Ok (Some [vec_list v']) /\
    rotate_all T zero plus times of_int AsRecip 1 (0, 3, 0) (map l9 ops) [r] [invr] [vec_list w] = Ok (Some [vec_list w']) /\
    dot T plus times v' w' = of_int (det3 R) * dot T plus times v w.
Proof.
  intros Hc E. exists (gv AsAxial R Ri v), (gv AsRecip R Ri w). split; [now apply (one_ok _ _ _ _ _ 0)|]. split; [now apply (one_ok _ _ _ _ _ 0)|].
  now apply axial_recip_dot.
Qed.
Lemma scale_one v : scale T times (of_int 1) v = v.
Proof. rewrite H1. destruct v as [[a b] c]. unfold scale. f_equal; [f_equal|]; ring. Qed.
Lemma alike_proof branches e0 e1 e2 ops r invr rows :
  shaped_rows T branches e0 e1 e2 rows -> e1 / 3 <> 0 \/ e2 / 9 <> 0 ->
  (forall i, (i < length rows)%nat -> exists R, chosen ops r invr i R R /\ mul3 R R = I3 /\ det3 R = 1%Z) ->
  rotate_all T zero plus times of_int AsReal branches (e0, e1, e2) (map l9 ops) r invr (map (row_list T) rows) =
  rotate_all T zero plus times of_int AsAxial branches (e0, e1, e2) (map l9 ops) r invr (map (row_list T) rows).
Proof.
  intros Hs Hn Hc.
  assert (Hi : chosen_inverse ops r invr (length rows)) by (intros i Hi; destruct (Hc i Hi) as (R & A & B & _); now exists R, R).
  destruct (rotate_all_ok AsReal branches e0 e1 e2 ops r invr rows Hs Hi Hn) as (x & Ex & Lx & Hx).
  destruct (rotate_all_ok AsAxial branches e0 e1 e2 ops r invr rows Hs Hi Hn) as (y & Ey & Ly & Hy).
  rewrite Ex, Ey. do 2 f_equal. f_equal. apply nth_ext with (d := []) (d' := []); [congruence|]. intros i Hl. rewrite Lx in Hl.
  destruct (Hc i Hl) as (R & A & B & D). destruct (nth_error rows i) as [bs|] eqn:Er; [|apply nth_error_None in Er; lia].
  specialize (Hx i R R bs A Er). specialize (Hy i R R bs A Er). rewrite (nth_error_nth _ _ _ Hx), (nth_error_nth _ _ _ Hy).
  apply map_ext. intros b. unfold map_branch. f_equal. apply map_ext. intros v. cbn [gv]. rewrite D. symmetry. apply scale_one.
Qed.
End Ring.
