(** Corner cases of functions modelled elsewhere: what they do with arguments for which
    there is no proper answer (C14, C17, C24, C31, C34, C35, C39, C48, C75). *)
From Coq Require Import NArith QArith String.
From Verif Require Import Base MatModel MatSpec MotionModel MotionSpec SymmetryModel PermTableModel PermTableSpec SortStatusModel SortStatusSpec BoundaryProofs.
From Verif Require PrimitiveModel PruneModel RotateModel SpgModel SpgTable TrellisModel.
Import List.ListNotations.
Local Open Scope nat_scope.

(** C24: a motion without inverse is given the zero motion. *)
Theorem singular_inverse : forall D a, det3 (rotp a) = 0%Z -> motion_inv D a = Mo (M3 0 0 0 0 0 0 0 0 0) (V3 0 0 0).
Proof. exact singular_inverse_proof. Qed.
Print Assumptions singular_inverse.
Example singular_inverse_example : det3 (rotp (Mo (M3 1 2 3 2 4 6 0 0 1) (V3 1 2 3))) = 0%Z.
Proof. reflexivity. Qed.
Theorem identity_tests : forall a, (has_identity_rotation a = true <-> rotp a = I3) /\ (has_identity_translation a = true <-> trap a = V3 0 0 0).
Proof. exact identity_tests_proof. Qed.
Print Assumptions identity_tests.
Example identity_tests_example : has_identity_rotation (Mo I3 (V3 1 0 0)) = true /\ has_identity_translation (Mo I3 (V3 1 0 0)) = false.
Proof. split; reflexivity. Qed.
Theorem proper_outside : forall r i, List.length r <= i -> get_proper r i = M3 0 0 0 0 0 0 0 0 0.
Proof. exact proper_outside_proof. Qed.
Print Assumptions proper_outside.
Example proper_outside_example : List.length [I3] <= 1 /\ get_proper [I3] 0 = I3.
Proof. split; [apply le_n|reflexivity]. Qed.

(** C14: two tables are unequal unless they are the same; an entry is replaced by a number
    only if there is one. *)
Theorem table_unequal : forall a b, pt_neq a b = false <-> a = b.
Proof. exact table_unequal_proof. Qed.
Print Assumptions table_unequal.
Example table_unequal_example : pt_neq (PT 2 [(0, 1)] [[0; 1]]) (PT 2 [(0, 1)] [[1; 0]]) = true.
Proof. reflexivity. Qed.
Theorem overwrite_index : forall t i j idx, i < pt_n t -> j < pt_n t ->
  (pt_find t i j = None -> pt_overwrite_idx i j idx t = Throw) /\
  (pt_find t i j <> None -> exists t', pt_overwrite_idx i j idx t = Ok t' /\ pt_n t' = pt_n t /\ pt_perm t' = pt_perm t /\
     pt_has t' i j = true /\ (forall p, nth_error (pt_perm t) idx = Some p -> safe_get t' i j = Ok p) /\
     forall a b, a < pt_n t -> b < pt_n t -> same_pair i j a b = false -> pt_find t' a b = pt_find t a b).
Proof. exact overwrite_index_proof. Qed.
Print Assumptions overwrite_index.
Example overwrite_index_example : let t := PT 2 [(0, 1); (1, 1)] [[0; 1]; [1; 0]] in
  pt_find t 0 1 <> None /\ (exists t', pt_overwrite_idx 0 1 1 t = Ok t' /\ safe_get t' 0 1 = Ok [1; 0]) /\ pt_overwrite_idx 1 0 1 t = Throw.
Proof. split; [discriminate|]. split; [eexists; split; reflexivity|reflexivity]. Qed.

(** C17: a new status.  The visits stored are those asked for plus the largest number that
    fits, modulo the room there is. *)
Theorem status_make : forall s f u,
  (u <= most_visits -> exists w, ss_make s f u = Ok w /\ (w < 2 ^ 32) /\ content w = Status s f false false ((u + most_visits) mod 2 ^ 28))%N /\
  (most_visits < u -> ss_make s f u = Throw)%N.
Proof. exact status_make_proof. Qed.
Print Assumptions status_make.
Example status_make_example : exists w, ss_make true false 3 = Ok w /\ content w = Status true false false false 2.
Proof. eexists. split; reflexivity. Qed.

(** C35: a vector that is neither in direct nor in reciprocal space is refused, unless the
    lattice is primitive. *)
Theorem other_unit : forall b v, b <> PrimitiveModel.B_P ->
  PrimitiveModel.q_to b PrimitiveModel.OtherUnit v = Throw /\ PrimitiveModel.q_from b PrimitiveModel.OtherUnit v = Throw /\
  forall u, PrimitiveModel.q_to PrimitiveModel.B_P u v = Ok v /\ PrimitiveModel.q_from PrimitiveModel.B_P u v = Ok v.
Proof. exact other_unit_proof. Qed.
Print Assumptions other_unit.
Example other_unit_example : PrimitiveModel.B_F <> PrimitiveModel.B_P.
Proof. discriminate. Qed.

(** C39: more flags than points. *)
Theorem remove_points_long : forall P arrange keep (points : list P) faces, List.length points < List.length keep -> In false keep ->
  PruneModel.remove_points P arrange keep points faces = Throw.
Proof. exact remove_points_long_proof. Qed.
Print Assumptions remove_points_long.
Example remove_points_long_example : List.length [7] < List.length [true; false] /\ In false [true; false].
Proof. split; [apply le_n|right; now left]. Qed.

(** C75: an operation that does not exist is an error; a row that is too short is read
    beyond its end. *)
Theorem rotate_errors : forall T zero plus times of_int k branches e0 e1 e2 ptsym r invr (row : list T) a,
  e1 / 3 <> 0 \/ e2 / 9 <> 0 -> nth_error r 0 = Some a ->
  (List.length ptsym <= a -> RotateModel.rotate_all T zero plus times of_int k branches (e0, e1, e2) ptsym r invr [row] = Throw) /\
  (forall R b, nth_error ptsym a = Some R -> R <> [1; 0; 0; 0; 1; 0; 0; 0; 1]%Z -> nth_error invr 0 = Some b -> List.length ptsym <= b ->
     RotateModel.rotate_all T zero plus times of_int k branches (e0, e1, e2) ptsym r invr [row] = Throw) /\
  (forall R Ri b, nth_error ptsym a = Some R -> R <> [1; 0; 0; 0; 1; 0; 0; 0; 1]%Z -> nth_error invr 0 = Some b -> nth_error ptsym b = Some Ri ->
     branches <> 0 -> List.length row < e0 + 3 -> e1 / 3 <> 0 ->
     RotateModel.rotate_all T zero plus times of_int k branches (e0, e1, e2) ptsym r invr [row] = UB).
Proof. exact rotate_errors_proof. Qed.
Print Assumptions rotate_errors.
Example rotate_errors_example : let ops := [[-1; 0; 0; 0; -1; 0; 0; 0; -1]%Z] in
  RotateModel.rotate_all Z 0%Z Z.add Z.mul (fun z => z) RotateModel.AsReal 1 (0, 3, 0) ops [0] [0] [[1; 2]%Z] = UB /\
  RotateModel.rotate_all Z 0%Z Z.add Z.mul (fun z => z) RotateModel.AsReal 1 (0, 3, 0) ops [0] [1] [[1; 2; 3]%Z] = Throw.
Proof. split; reflexivity. Qed.

(** C31: a number outside the table stands for its first, empty, entry, and a name that is
    nowhere in the table has the number of that entry. *)
Theorem hall_number_outside : forall h, (h <= 0 \/ 530 < h)%Z -> SpgModel.set_from_hall_number h = nth_error SpgTable.all_spacegroups 0.
Proof. exact hall_number_outside_proof. Qed.
Print Assumptions hall_number_outside.
Example hall_number_outside_example : (530 < 531)%Z.
Proof. reflexivity. Qed.
Theorem unknown_name : forall n c, (forall s, In s (tl SpgTable.all_spacegroups) ->
    n <> SpgTable.hall s /\ n <> SpgTable.international s /\ n <> SpgTable.full s /\ n <> SpgTable.short s) ->
  SpgModel.string_to_hall_number n c = 0%Z.
Proof. exact unknown_name_proof. Qed.
Print Assumptions unknown_name.
Example unknown_name_example : SpgModel.string_to_hall_number "Q 17"%string ""%string = 0%Z.
Proof. reflexivity. Qed.

(** C48: the nodes are loaded exactly when the numbers of things stored agree. *)
Theorem load_iff : forall C P (f : TrellisModel.stored C P),
  let count k := List.length (filter (fun t => match t, k with TrellisModel.TCube, TrellisModel.TCube => true | TrellisModel.TPoly, TrellisModel.TPoly => true | _, _ => false end)
                                (TrellisModel.st_types C P f)) in
  if (List.length (TrellisModel.st_types C P f) =? List.length (TrellisModel.st_index C P f)) &&
     (List.length (TrellisModel.st_cubes C P f) =? count TrellisModel.TCube) && (List.length (TrellisModel.st_polys C P f) =? count TrellisModel.TPoly)
  then TrellisModel.from_hdf C P f = Ok (TrellisModel.Con C P (combine (TrellisModel.st_types C P f) (TrellisModel.st_index C P f))
                                            (TrellisModel.st_cubes C P f) (TrellisModel.st_polys C P f))
  else TrellisModel.from_hdf C P f = Throw.
Proof. exact load_iff_proof. Qed.
Print Assumptions load_iff.
Example load_iff_example : TrellisModel.from_hdf nat nat (TrellisModel.St nat nat [TrellisModel.TCube; TrellisModel.TNull] [0; 0] [] []) = Throw /\
  TrellisModel.from_hdf nat nat (TrellisModel.St nat nat [TrellisModel.TCube; TrellisModel.TNull] [0; 0] [5] []) =
  Ok (TrellisModel.Con nat nat [(TrellisModel.TCube, 0); (TrellisModel.TNull, 0)] [5] []).
Proof. split; reflexivity. Qed.

(** C34: a row vector times a matrix. *)
Theorem vector_matrix : forall a x, multiply_vector_matrix 3 (l3 x) (l9 a) = l3 (act3 (trans3 a) x).
Proof. exact vector_matrix_proof. Qed.
Print Assumptions vector_matrix.
Example vector_matrix_example : multiply_vector_matrix 3 [1; 2; 3]%Z [1; 2; 3; 4; 5; 6; 7; 8; 9]%Z = [30; 36; 42]%Z.
Proof. reflexivity. Qed.
