(** Proofs about the corner cases of functions modelled elsewhere. *)
From Coq Require Import NArith QArith String ZifyBool.
From Verif Require Import Base Array2Model MatModel MatSpec MatProofs MotionModel MotionSpec MotionProofs SymmetryModel
  PermTableModel PermTableSpec PermTableProofs SortStatusModel SortStatusSpec SortStatusProofs.
From Verif Require PrimitiveModel PruneModel RotateModel SpgModel SpgTable TrellisModel.
Import List.ListNotations.
Local Open Scope outcome_scope.
Local Open Scope nat_scope.

(** ** Motions *)
Lemma singular_inverse_proof : forall D a, det3 (rotp a) = 0%Z -> motion_inv D a = Mo (M3 0 0 0 0 0 0 0 0 0) (V3 0 0 0).
Proof.
  intros D a H. unfold motion_inv. unfold matrix_inverse. rewrite det3_model, H. cbn [Z.abs Z.ltb Z.compare].
  rewrite mul31_model, v3_of_l3. destruct (trap a) as [x y z]. unfold act3, frac3. cbn [v0 v1 v2 row0 row1 row2 dot3 m00 m01 m02 m10 m11 m12 m20 m21 m22]. 
  f_equal.
Qed.
Lemma identity_tests_proof : forall a, (has_identity_rotation a = true <-> rotp a = I3) /\ (has_identity_translation a = true <-> trap a = V3 0 0 0).
Proof.
  intros a. split; [unfold has_identity_rotation; apply m3_eqb_spec|]. unfold has_identity_translation. destruct (trap a) as [x y z]. cbn [v0 v1 v2].
  split; [intros H; f_equal; lia|intros E; inversion E; subst; reflexivity].
Qed.
Lemma proper_outside_proof : forall r i, length r <= i -> get_proper r i = M3 0 0 0 0 0 0 0 0 0.
Proof. intros r i H. unfold get_proper. now rewrite (proj2 (nth_error_None r i) H). Qed.

(** ** Tables of permutations *)
Lemma list_eqb_iff {A} (eqb : A -> A -> bool) : (forall a b, eqb a b = true <-> a = b) ->
  forall l m, list_eqb eqb l m = true <-> l = m.
Proof.
  intros H. induction l as [|a l IH]; intros [|b m]; cbn [list_eqb]; try (split; [discriminate|discriminate]); [tauto|].
  rewrite Bool.andb_true_iff, H, IH. split; [intros [-> ->]; reflexivity|intros E; now inversion E].
Qed.
Lemma table_unequal_proof : forall a b, pt_neq a b = false <-> a = b.
Proof.
  intros [n m p] [n' m' p']. unfold pt_neq. cbn [pt_n pt_map pt_perm].
  assert (E1 : forall x y, entry_eqb x y = true <-> x = y).
  { intros [x y] [x' y']. unfold entry_eqb. cbn [fst snd]. rewrite Bool.andb_true_iff, !Nat.eqb_eq. split; [intros [-> ->]; reflexivity|intros E; now inversion E]. }
  assert (E2 : forall x y, list_eqb Nat.eqb x y = true <-> x = y) by (apply list_eqb_iff, Nat.eqb_eq).
  destruct (n =? n') eqn:En; cbn [negb]; [|split; [discriminate|intros E; inversion E; subst; now rewrite Nat.eqb_refl in En]].
  apply Nat.eqb_eq in En. subst n'. destruct (list_eqb entry_eqb m m') eqn:Em; cbn [negb].
  - apply (list_eqb_iff entry_eqb E1) in Em. subst m'. rewrite Bool.negb_false_iff, (list_eqb_iff _ E2). split; [now intros ->|intros E; now inversion E].
  - split; [discriminate|]. intros E. inversion E; subst. assert (K : list_eqb entry_eqb m' m' = true) by now apply (list_eqb_iff entry_eqb E1). congruence.
Qed.
Lemma overwrite_index_proof : forall t i j idx, i < pt_n t -> j < pt_n t ->
  (pt_find t i j = None -> pt_overwrite_idx i j idx t = Throw) /\
  (pt_find t i j <> None -> exists t', pt_overwrite_idx i j idx t = Ok t' /\ pt_n t' = pt_n t /\ pt_perm t' = pt_perm t /\
     pt_has t' i j = true /\ (forall p, nth_error (pt_perm t) idx = Some p -> safe_get t' i j = Ok p) /\
     forall a b, a < pt_n t -> b < pt_n t -> same_pair i j a b = false -> pt_find t' a b = pt_find t a b).
Proof.
  intros t i j idx Hi Hj. unfold pt_overwrite_idx, pt_find. destruct (mfind (ij2key (pt_n t) i j) (pt_map t)) as [x|] eqn:E.
  2:{ split; [reflexivity|easy]. }
  split; [discriminate|]. intros _. eexists. split; [reflexivity|]. cbn [pt_n pt_perm pt_map]. split; [reflexivity|]. split; [reflexivity|].
  pose proof (fun k' => mfind_massign _ (idx + 1) _ k' _ E) as F. split; [|split].
  - unfold pt_has, pt_find. cbn [pt_n pt_map]. rewrite F, Nat.eqb_refl. apply Nat.leb_le. lia.
  - intros p Hp. unfold safe_get, pt_find. cbn [pt_n pt_map pt_perm]. rewrite F, Nat.eqb_refl. replace (1 <=? idx + 1) with true by lia.
    unfold rd. replace (idx + 1 - 1) with idx by lia. now rewrite Hp.
  - intros a b Ha Hb Hs. rewrite F, key_inj, Hs by auto. reflexivity.
Qed.

(** ** Sorting status *)
Lemma status_make_proof : forall s f u,
  (u <= most_visits -> exists w, ss_make s f u = Ok w /\ (w < 2 ^ 32) /\ content w = Status s f false false ((u + most_visits) mod 2 ^ 28))%N /\
  (most_visits < u -> ss_make s f u = Throw)%N.
Proof.
  intros s f u. unfold ss_make.
  assert (C0 : (0 < 2 ^ 32)%N) by reflexivity. destruct (status_flag_setters_proof 0%N s C0) as [[B1 C1] _].
  destruct (status_flag_setters_proof (ss_set_sorted s 0) f B1) as (_ & [B2 C2] & _).
  destruct (status_set_visits_proof (ss_set_locked f (ss_set_sorted s 0)) u B2) as [A B]. cbv zeta in A, B. rewrite C2, C1 in A.
  change (content 0) with (Status false false false false 0) in A. cbn [f_sorted f_locked f_queued f_claimed n_visits] in A.
  rewrite N.sub_0_r in A. split; [exact A|exact B].
Qed.

(** ** Units and lists of flags *)
Lemma other_unit_proof : forall b v, b <> PrimitiveModel.B_P ->
  PrimitiveModel.q_to b PrimitiveModel.OtherUnit v = Throw /\ PrimitiveModel.q_from b PrimitiveModel.OtherUnit v = Throw /\
  forall u, PrimitiveModel.q_to PrimitiveModel.B_P u v = Ok v /\ PrimitiveModel.q_from PrimitiveModel.B_P u v = Ok v.
Proof. intros b v H. split; [|split; [|intros u; split; reflexivity]]; destruct b; try reflexivity; easy. Qed.
Lemma remove_points_long_proof : forall P arrange keep (points : list P) faces, length points < length keep -> In false keep ->
  PruneModel.remove_points P arrange keep points faces = Throw.
Proof.
  intros P arrange keep points faces Hl Hf. unfold PruneModel.remove_points.
  replace (PruneModel.all_true keep) with false.
  2:{ symmetry. unfold PruneModel.all_true. apply Bool.not_true_iff_false. rewrite forallb_forall. intros H. apply H in Hf. discriminate. }
  replace (length keep <? length points) with false by lia. unfold PruneModel.extract. replace (length points <? length keep) with true by lia. reflexivity.
Qed.

(** ** Rotating data *)
Lemma rotate_errors_proof : forall T zero plus times of_int k branches e0 e1 e2 ptsym r invr (row : list T) a,
  e1 / 3 <> 0 \/ e2 / 9 <> 0 -> nth_error r 0 = Some a ->
  (length ptsym <= a -> RotateModel.rotate_all T zero plus times of_int k branches (e0, e1, e2) ptsym r invr [row] = Throw) /\
  (forall R b, nth_error ptsym a = Some R -> R <> [1; 0; 0; 0; 1; 0; 0; 0; 1]%Z -> nth_error invr 0 = Some b -> length ptsym <= b ->
     RotateModel.rotate_all T zero plus times of_int k branches (e0, e1, e2) ptsym r invr [row] = Throw) /\
  (forall R Ri b, nth_error ptsym a = Some R -> R <> [1; 0; 0; 0; 1; 0; 0; 0; 1]%Z -> nth_error invr 0 = Some b -> nth_error ptsym b = Some Ri ->
     branches <> 0 -> length row < e0 + 3 -> e1 / 3 <> 0 ->
     RotateModel.rotate_all T zero plus times of_int k branches (e0, e1, e2) ptsym r invr [row] = UB).
Proof.
  intros T zero plus times of_int k branches e0 e1 e2 ptsym r invr row a He Ha. unfold RotateModel.rotate_all, RotateModel.counts.
  replace ((e1 / 3 =? 0) && (e2 / 9 =? 0)) with false by (symmetry; destruct (e1 / 3 =? 0) eqn:E1, (e2 / 9 =? 0) eqn:E2; lia).
  cbn [length seq mapM]. change (rd [row] 0) with (Ok row). cbn [bind]. unfold RotateModel.rotate_row. unfold rd at 1 3 5. rewrite Ha. cbn [bind].
  unfold RotateModel.get_op. split; [|split].
  - intros H. now rewrite (proj2 (nth_error_None ptsym a) H).
  - intros R b HR HN Hb H. rewrite HR. cbn [bind]. unfold RotateModel.list_eqb. destruct (list_eq_dec Z.eq_dec RotateModel.identity9 R) as [E|N]; [now elim HN|].
    unfold rd at 1. rewrite Hb. cbn [bind]. now rewrite (proj2 (nth_error_None ptsym b) H).
  - intros R Ri b HR HN Hb HRi Hbr Hl H1. rewrite HR. cbn [bind]. unfold RotateModel.list_eqb. destruct (list_eq_dec Z.eq_dec RotateModel.identity9 R) as [E|N]; [now elim HN|].
    unfold rd at 1. rewrite Hb. cbn [bind]. rewrite HRi. cbn [bind]. unfold RotateModel.rotate_branches.
    destruct branches as [|n]; [easy|]. cbn [seq foldM Nat.mul Nat.add]. unfold RotateModel.blocks. destruct (e1 / 3) as [|m]; [easy|]. cbn [seq foldM].
    unfold RotateModel.rd_block at 1. replace (e0 + 3 <=? length row) with false by (symmetry; apply Nat.leb_gt; lia). reflexivity.
Qed.

(** ** Space group names *)
Lemma hall_number_outside_proof : forall h, (h <= 0 \/ 530 < h)%Z ->
  SpgModel.set_from_hall_number h = nth_error SpgTable.all_spacegroups 0.
Proof. intros h H. unfold SpgModel.set_from_hall_number, SpgModel.hall_number_ok. replace ((0 <? h) && (h <? 531))%Z with false by lia. reflexivity. Qed.
Lemma first_none p : (forall s, In s (tl SpgTable.all_spacegroups) -> p s = false) -> SpgModel.first_entry p = None.
Proof.
  unfold SpgModel.first_entry. generalize 1%Z. induction (tl SpgTable.all_spacegroups) as [|s l IH]; intros i H; cbn [SpgModel.first_from]; [reflexivity|].
  rewrite (H s (or_introl eq_refl)). apply IH. intros x Hx. apply H. now right.
Qed.
Lemma unknown_name_proof : forall n c, (forall s, In s (tl SpgTable.all_spacegroups) ->
    n <> SpgTable.hall s /\ n <> SpgTable.international s /\ n <> SpgTable.full s /\ n <> SpgTable.short s) ->
  SpgModel.string_to_hall_number n c = 0%Z.
Proof.
  intros n c H. unfold SpgModel.string_to_hall_number, SpgModel.hall_symbol_to_hall_number, SpgModel.international_string_to_hall_number.
  rewrite first_none; [|intros s Hs; apply String.eqb_neq; apply (H s Hs)]. cbn [SpgModel.or_else Z.eqb].
  rewrite first_none; [reflexivity|]. intros s Hs. destruct (H s Hs) as (_ & A & B & C). apply Bool.andb_false_iff. right. unfold SpgModel.named.
  apply String.eqb_neq in A, B, C. now rewrite A, B, C.
Qed.

(** ** Loading nodes *)
Lemma load_iff_proof : forall C P (f : TrellisModel.stored C P),
  let count k := List.length (filter (fun t => match t, k with TrellisModel.TCube, TrellisModel.TCube => true | TrellisModel.TPoly, TrellisModel.TPoly => true | _, _ => false end)
                                (TrellisModel.st_types C P f)) in
  if (List.length (TrellisModel.st_types C P f) =? List.length (TrellisModel.st_index C P f)) &&
     (List.length (TrellisModel.st_cubes C P f) =? count TrellisModel.TCube) && (List.length (TrellisModel.st_polys C P f) =? count TrellisModel.TPoly)
  then TrellisModel.from_hdf C P f = Ok (TrellisModel.Con C P (combine (TrellisModel.st_types C P f) (TrellisModel.st_index C P f))
                                            (TrellisModel.st_cubes C P f) (TrellisModel.st_polys C P f))
  else TrellisModel.from_hdf C P f = Throw.
Proof.
  intros C P f count. unfold TrellisModel.from_hdf.
  assert (E1 : List.length (filter TrellisModel.is_cube_type (TrellisModel.st_types C P f)) = count TrellisModel.TCube).
  { unfold count. f_equal; apply filter_ext; now intros []. }
  assert (E2 : List.length (filter TrellisModel.is_poly_type (TrellisModel.st_types C P f)) = count TrellisModel.TPoly).
  { unfold count. f_equal; apply filter_ext; now intros []. }
  rewrite E1, E2. destruct (List.length (TrellisModel.st_types C P f) =? List.length (TrellisModel.st_index C P f)); cbn [andb negb]; [|reflexivity].
  destruct (Nat.eqb_spec (List.length (TrellisModel.st_cubes C P f)) (count TrellisModel.TCube)) as [A|A]; cbn [andb negb]; [|reflexivity].
  destruct (Nat.eqb_spec (List.length (TrellisModel.st_polys C P f)) (count TrellisModel.TPoly)) as [B|B]; cbn [negb]; [|reflexivity].
  rewrite <- A, <- B, !firstn_all. reflexivity.
Qed.
Lemma vector_matrix_proof : forall a x, multiply_vector_matrix 3 (l3 x) (l9 a) = l3 (act3 (trans3 a) x).
Proof. intros a x. apply mul13_model. Qed.
