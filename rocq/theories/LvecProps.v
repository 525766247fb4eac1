(** Vectors in the units of a lattice. *)
From Coq Require Import Reals.
From Verif Require Import Base Array2Model PrimitiveModel AngleModel LatticeModel LatticeSpec LvecModel LvecSpec LvecProofs LvecWitnessProofs.
Local Open Scope R_scope.

(** Orthonormal coordinates are those of the linear combinations of the basis vectors. *)
Theorem lattice_vectors_xyz : forall v, lattice_vectors v -> xyz v = Ok (absolute v).
Proof. exact xyz_rows_proof. Qed.
Print Assumptions lattice_vectors_xyz.

(** The method star expresses the same vectors in the dual basis, and undoes itself. *)
Theorem star_method_same_vectors : forall v, lattice_vectors v ->
  exists w, star v = Ok w /\ lattice_vectors w /\ one_lattice v w /\ lv_unit w <> lv_unit v /\ absolute w = absolute v.
Proof. exact star_proof. Qed.
Print Assumptions star_method_same_vectors.
Theorem star_method_twice : forall v, lattice_vectors v -> bind (star v) star = Ok v.
Proof. exact star_star_proof. Qed.
Print Assumptions star_method_twice.

(** The function of the same name does not: its vectors are longer by a factor of two pi. *)
Theorem star_function_same_vectors_refuted : exists v w, lattice_vectors v /\ star_function v = Ok w /\ absolute w <> absolute v.
Proof. exact star_function_refuted_proof. Qed.
Print Assumptions star_function_same_vectors_refuted.
Theorem star_function_two_pi : forall v, lattice_vectors v ->
  exists w, star_function v = Ok w /\ lattice_vectors w /\ one_lattice v w /\ lv_unit w <> lv_unit v /\
    absolute w = map (fun x => R3 (2 * PI * rx x) (2 * PI * ry x) (2 * PI * rz x)) (absolute v).
Proof. exact star_function_proof. Qed.
Print Assumptions star_function_two_pi.

(** Cross products of vectors in the same units, for bases of either hand. *)
Theorem lattice_cross_products : forall a b, lattice_vectors a -> one_lattice a b -> lv_unit a = lv_unit b -> rows_fit (lv_rows a) (lv_rows b) ->
  exists w, cross_function a b = Ok w /\ one_lattice a w /\ lv_unit w = lv_unit a /\ paired cross (absolute a) (absolute b) (absolute w).
Proof. exact cross_proof. Qed.
Print Assumptions lattice_cross_products.
Theorem lattice_cross_method : forall v i j, lattice_vectors v ->
  exists w, cross_method v i j = Ok w /\ one_lattice v w /\ lv_unit w = lv_unit v /\
    absolute w = match nth_error (absolute v) i, nth_error (absolute v) j with Some x, Some y => [cross x y] | _, _ => [] end.
Proof. exact cross_method_proof. Qed.
Print Assumptions lattice_cross_method.

(** Scalar products of vectors of one lattice, in the same or in different units. *)
Theorem lattice_scalar_products : forall a b, lattice_vectors a -> one_lattice a b -> lv_unit b <> OtherUnit -> rows_fit (lv_rows a) (lv_rows b) ->
  exists o, dot_function a b = Ok o /\ paired dot (absolute a) (absolute b) o.
Proof. exact dot_proof. Qed.
Print Assumptions lattice_scalar_products.
Theorem lattice_scalar_product_of_different_lattices : forall a b, ~ one_lattice a b -> dot_function a b = Throw.
Proof. exact dot_throws_proof. Qed.
Print Assumptions lattice_scalar_product_of_different_lattices.
Theorem lattice_scalar_product_method : forall v i j, lattice_vectors v ->
  dot_method v i j = match nth_error (absolute v) i, nth_error (absolute v) j with Some x, Some y => Ok (dot x y) | _, _ => Throw end.
Proof. exact dot_method_proof. Qed.
Print Assumptions lattice_scalar_product_method.
Theorem lattice_lengths : forall v, lattice_vectors v ->
  norm_function v = Ok (map (fun x => sqrt (dot x x)) (absolute v)) /\
  forall i, norm_method v i = match nth_error (absolute v) i with Some x => Ok (sqrt (dot x x)) | None => Throw end.
Proof. exact LvecProofs.lengths_proof. Qed.
Print Assumptions lattice_lengths.

(** Sums, differences, the negative and joined arrays. *)
Theorem lattice_sums : forall a b, one_lattice a b -> lv_unit a = lv_unit b -> rows_fit (lv_rows a) (lv_rows b) -> lv_rows a <> [] -> lv_rows b <> [] ->
  (exists w, plus_rows a b = Ok w /\ one_lattice a w /\ lv_unit w = lv_unit a /\
     paired (fun x y => R3 (rx x + rx y) (ry x + ry y) (rz x + rz y)) (absolute a) (absolute b) (absolute w)) /\
  (exists w, minus_rows a b = Ok w /\ one_lattice a w /\ lv_unit w = lv_unit a /\
     paired (fun x y => R3 (rx x - rx y) (ry x - ry y) (rz x - rz y)) (absolute a) (absolute b) (absolute w)).
Proof. exact sums_proof. Qed.
Print Assumptions lattice_sums.
Theorem lattice_negative : forall a, one_lattice a (minus_self a) /\ lv_unit (minus_self a) = lv_unit a /\
  absolute (minus_self a) = map (fun x => R3 (- rx x) (- ry x) (- rz x)) (absolute a).
Proof. exact negated_proof. Qed.
Print Assumptions lattice_negative.
Theorem lattice_join : forall a b,
  (one_lattice a b /\ lv_unit a = lv_unit b /\ exists w, cat_rows a b = Ok w /\ one_lattice a w /\ lv_unit w = lv_unit a /\ absolute w = absolute a ++ absolute b)
  \/ (~ (one_lattice a b /\ lv_unit a = lv_unit b) /\ cat_rows a b = Throw).
Proof. exact cat_proof. Qed.
Print Assumptions lattice_join.

(** Different units in a sum or a cross product go unnoticed. *)
Theorem lattice_mixed_units_refuted :
  (exists a b w, lattice_vectors a /\ lattice_vectors b /\ one_lattice a b /\ lv_unit a <> lv_unit b /\ rows_fit (lv_rows a) (lv_rows b) /\
     plus_rows a b = Ok w /\ ~ paired (fun x y => R3 (rx x + rx y) (ry x + ry y) (rz x + rz y)) (absolute a) (absolute b) (absolute w)) /\
  (exists a b w, lattice_vectors a /\ lattice_vectors b /\ one_lattice a b /\ lv_unit a <> lv_unit b /\ rows_fit (lv_rows a) (lv_rows b) /\
     cross_function a b = Ok w /\ ~ paired cross (absolute a) (absolute b) (absolute w)).
Proof. exact mixed_units_refuted_proof. Qed.
Print Assumptions lattice_mixed_units_refuted.
(** Numbers of rows that do not fit: some products are left out, are refused or are read
    from beyond the array. *)
Theorem lattice_misfit_rows_refuted :
  (exists a b o, lattice_vectors a /\ one_lattice a b /\ lv_unit a = lv_unit b /\ ~ rows_fit (lv_rows a) (lv_rows b) /\ dot_function a b = Ok o) /\
  (exists a b, lattice_vectors a /\ one_lattice a b /\ lv_unit a = lv_unit b /\ ~ rows_fit (lv_rows a) (lv_rows b) /\ dot_function a b = Throw) /\
  (exists a b, lattice_vectors a /\ one_lattice a b /\ lv_unit a = lv_unit b /\ ~ rows_fit (lv_rows a) (lv_rows b) /\ cross_function a b = UB).
Proof. exact misfit_rows_refuted_proof. Qed.
Print Assumptions lattice_misfit_rows_refuted.

(** A left handed basis with one vector against two. *)
Example left_handed_vectors : lattice_vectors (LV Angstrom left1 left2 [R3 1 2 3]) /\ triple left1 = -1 /\
  rows_fit (lv_rows (LV Angstrom left1 left2 [R3 1 2 3])) (lv_rows (LV InverseAngstrom left1 left2 [R3 0 1 0; R3 1 1 1])).
Proof. split; [split; [exact lefts_dual|discriminate]|]. split; [exact left_handed|]. now right; left. Qed.
Example left_handed_cross : exists w, cross_function (LV Angstrom left1 left2 [R3 1 0 0]) (LV Angstrom left1 left2 [R3 0 1 0]) = Ok w /\ absolute w = [R3 0 0 1].
Proof.
  destruct (lattice_cross_products (LV Angstrom left1 left2 [R3 1 0 0]) (LV Angstrom left1 left2 [R3 0 1 0])) as (w & W & _ & _ & L & H);
    [split; [exact lefts_dual|discriminate]|now split|reflexivity|now left|].
  exists w. split; [exact W|]. destruct (absolute w) as [|z [|z' l]]; try discriminate L. f_equal.
  destruct (H 0%nat z eq_refl) as (x & y & A & B & ->). cbn in A, B. injection A as <-. injection B as <-. unfold cross. cbn. f_equal; ring.
Qed.
Example different_lattices : ~ one_lattice (LV Angstrom left1 left2 []) (LV Angstrom cube1 cube2 []).
Proof. intros [H _]. cbn in H. injection H as H _. now apply R1_neq_R0. Qed.
