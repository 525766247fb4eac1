# Formal model of brille: design

This document says what is modelled, how each property is proved, where the code
and a property disagree, and what the result rests on. It is kept current with
the development.

## Layout

Each topic has up to four kinds of Coq files in `rocq/theories`:

| file | content |
|------|---------|
| `<Topic>Model.v`  | executable Gallina model of the code; each definition cites `/repo` file and lines |
| `<Topic>Spec.v`   | the small specification vocabulary used by the theorem statements; refers to no helper of the model |
| `<...>Proofs.v`   | lemmas |
| `<Topic>Props.v`  | only the property theorems, their non-vacuity `Example`s and `Print Assumptions` |

`properties.jsonl` lists the properties, `MANIFEST.json` the theorems claimed for
each of them, `seeded/LOG.jsonl` the wrong programs the theorems were tried on.

A theorem ending in `_partial` proves part of a property; one ending in
`_refuted` exhibits an input for which the property (or an extension of it that a
user might expect) is false of the model, that is, a defect of the code.

## Conventions of the model

* **Outcomes.** Undefined behaviour of the C++ (out-of-range access, modulo by
  zero, use of an empty optional, ...), thrown exceptions and exhausted fuel are
  distinct constructors of the result type (`Base.outcome`), never a default value.
  A theorem about a loop with fuel states the amount that suffices, or holds for
  every larger amount.
* **Numbers.** Floating-point numbers are idealised to exact numbers: `Z` where
  the algorithm is invariant under scaling (costs, knots), `Q` for coordinates, an
  arbitrary commutative ring where only sums and products matter, and Coq's real
  numbers for the angles and basis vectors of lattices (C121-C126), where division
  by zero and roots of negative numbers are undefined behaviour. Comparison
  within tolerances (`approx_float`) is idealised to exact equality, or to an
  arbitrary relation where the theorem says so. So rounding, NaN and tolerances
  are *not* covered by any theorem, unless it says so.
* **Integers.** `size_t`/`unsigned` are unbounded naturals unless the property
  concerns wrap-around; where they wrap (reverse loops, subtraction below zero,
  32-bit status words, binomial coefficients) the wrap is written into the model.
* **Concurrency.** An OpenMP region is a set of threads, each a list of atomic
  steps; a schedule is an arbitrary interleaving. What is atomic is stated with
  each model: a critical section or lock-guarded block is one step; unguarded
  reads and writes are separate steps.
* **Release builds.** `assert` is taken to be disabled, as in the distributed
  wheels.
* **Not modelled at all:** TetGen, HDF5 itself (reading gives what was written),
  pybind11, the OpenMP runtime, memory exhaustion, floating-point rounding, C++
  template instantiation.

## Trusted base

* Coq 8.16.1's kernel (and `vm_compute`, used for the space-group table, small
  finite enumerations and examples), the standard library. The theorems about
  lattices use its axioms for real numbers: `ClassicalDedekindReals.sig_forall_dec`,
  `ClassicalDedekindReals.sig_not_dec`,
  `FunctionalExtensionality.functional_extensionality_dep`, `Classical_Prop.classic`.
  No other theorem uses an axiom.
* `Print Assumptions` under every property theorem; see "Assumptions" at the end.
* Faithfulness of the hand-written model to the C++ text. There is no
  machine-checked link between the two; the space-group table alone was
  transcribed by a script.

## Properties

### C01 Subscript iteration is exhaustive

`SubIt` (subscript.hpp) as a state machine `begin/next/end` over lists of any rank. The
iteration is shown, by induction over the rank, to yield the row-major list of all
subscripts, each once, and then to compare equal to the end. Outside of the statement: a
zero extent after the first dimension makes the loop run for ever.

*Proved* (`IndexProps.v`): `subit_iterates_all`, `subit_zero_extent_refuted`.

### C02 Partially fixed subscript iteration

The same iterator with fixed subscripts: it yields the subscripts that agree with the
fixed ones, in row-major order; fixing every dimension raises an error.

*Proved* (`IndexProps.v`): `subit_fixed_iterates`, `subit_all_fixed_throws`.

### C03 Broadcast iteration pairs elements correctly

`BroadcastIt`: the combined shape, the outer, first and second subscripts. Proved for
shapes without zero extents (and the error for incompatible ones). **Disagreement:** an
empty operand against a singleton one is given a subscript that it does not have.

*Partial* (`IndexProps.v`): `broadcast_iterates`, `broadcast_incompatible_throws`, `broadcast_empty_operand_refuted`.

### C04 Linear index and subscript conversion are inverse

`lin2sub`, `sub2lin` for vectors of any rank and for two dimensions, both orders, by
mixed-radix induction. **Disagreement:** for column order the vector version never
assigns the last subscript, and the two-dimensional one fails for a single row.
`lin2sub_col_order` states what is computed instead, for every shape.

*Partial* (`ColOrderProps.v`, `IndexProps.v`): `lin2sub_row_order`, `lin2sub2_row_order`, `lin2sub2_col_order`, `lin2sub_col_order_refuted`, `lin2sub2_single_row_col_order_refuted`, `lin2sub_col_order`, `lin2sub_empty`.

### C05 Array storage is released exactly once and never used after release (sequential histories)

A heap of buffers; arrays as handles with owner flag, shared counter and shift; every
constructor, assignment, view, resize and destructor of `Array2` is an operation. An
invariant over all operation sequences gives: no use after release, no double release.
**Disagreement:** assigning from another element type leaks (even with shared storage), and so
does a refused resize of an array with an offset.

*Partial* (`StorageProps.v`): `storage_safe`, `storage_exact_partial`, `storage_convert_refuted`, `storage_convert_shared_refuted`, `storage_resize_refuted`.

### C06 Array storage is released exactly once when handles are dropped concurrently

The destructor split into its atomic steps (read the counter, release, decrement), any
interleaving of any number of handles. **Disagreement:** two destructors that both read a
count above one leave the buffer unreleased.

*Partial* (`StorageProps.v`): `drop_safe`, `drop_last_partial`, `drop_leak_refuted`.

### C07 Row views address exactly the viewed rows

All `view` functions as arithmetic on (shift, shape, stride); chains of views by induction.

*Proved* (`Array2Props.v`, `RowErrorProps.v`): `views_correct`, `views_fit`.

### C08 Resizing and appending preserve contents

`resize`, `append`, `cat` on stored buffers with strides, stated element by element.

*Proved* (`Array2Props.v`): `resize_correct`, `resize_mixed_throws`, `resize_offset_throws`, `append_rows`, `append_columns`, `append_throws`, `cat_correct`, `resize_view_refuted`.

### C09 Reordering rows and deciding that two arrays are row permutations

`permute` (cycle swapping in place) and `is_permutation`, for all arrays and index lists.

*Proved* (`Array2Props.v`, `RowErrorProps.v`): `permute2_correct`, `is_permutation_correct`, `row_search`, `row_search_rejects`.

### C10 A permutation vector between two arrays maps every row

`permutation_vector`. **Disagreement:** with three equal rows the result is no
permutation; correct when no row repeats. The error cases are stated too: found or
thrown, never undefined, and thrown when a row is missing or the widths differ.

*Partial* (`Array2Props.v`, `RowErrorProps.v`): `permutation_vector_partial`, `permutation_vector_refuted`, `permutation_vector_errors`.

### C11 Unique rows

`is_unique`, `unique_idx`, `unique` for row comparison by an arbitrary relation.
**Disagreement:** `unique()` of a column-ordered array writes out of bounds.

*Partial* (`Array2Props.v`): `is_unique_correct`, `unique_idx_correct`, `unique_partial`, `unique_column_refuted`.

### C12 A row-ordered contiguous copy is row ordered, contiguous and equal

`is_contiguous`, `is_row_ordered`, `contiguous_copy`, `contiguous_row_ordered_copy`.
**Disagreement:** the row-ordered copy of a column-ordered array is column ordered.

*Partial* (`Array2Props.v`): `contiguous_meaning`, `contiguous_copy_correct`, `row_ordered_copy_partial`, `row_ordered_copy_refuted`.

### C13 Whole-array queries look only at the array's own elements

Queries by linear index (`is`, `all`, `any`, `count`, `first`, `last`, ...) through strides.
**Disagreement:** on a view with gaps they read elements that are not part of the view.

*Partial* (`Array2Props.v`): `queries_partial`, `queries_refuted`.

### C14 The permutation table is a faithful map from grid-point pairs to permutations

`PermutationTable` as lists and a key map; refinement to a finite map from pairs to
permutations for every history. **Disagreement:** `set` on a registered pair without
permutation is silently ignored; the index overload of `overwrite` checks nothing and a
later look-up reads out of bounds.
`BoundaryProps.v` adds inequality of tables and the effect of the index overload of `overwrite`.

*Partial* (`BoundaryProps.v`, `SortingProps.v`): `table_refines_map`, `table_set_registered_refuted`, `table_overwrite_index_refuted`, `table_unequal`, `overwrite_index`.

### C15 Grid-point pair keys are injective

`ij2key` and the decoding in `sort`, with the 32-bit arithmetic of the latter.

*Proved* (`SortingProps.v`): `pair_keys_injective`, `sort_decodes_keys`, `cell_keys`.

### C16 Parallel mode sorting is independent of the schedule

The parallel loop over pairs, each guarded `overwrite` an atomic step; the assignment
solver is an arbitrary function of the pair. Commutation of updates of different pairs.

*Proved* (`SortingProps.v`): `sort_any_schedule`, `sort_serial_is_a_schedule`.

### C17 Sorting status flags and visit counter are independent

`SortingStatus` on 32-bit words with bitwise operations. **Disagreement:** `visits(v)`
stores another number than v (the exact value is proved).
`status_make` gives the content of a newly made status.

*Partial* (`BoundaryProps.v`, `SortingProps.v`): `status_readers`, `status_flag_setters`, `status_addvisit`, `status_addvisit_max`, `status_set_visits_partial`, `status_set_visits_refuted`, `status_make`.

### C18 Munkres assignment is a minimum-cost permutation

All six steps of `Munkres` over `Z`, with the mask, the two covers, the stored position and the step number as explicit state; loops take fuel. The invariant is that the working costs are the given ones minus a number per row and one per column and are never negative, that stars are a partial matching of zero cells, and that every covered row carries one prime whose column's star lies in a row covered earlier. Each round adds a star; optimality follows from the duality argument. Costs are integers; with floating costs the subtraction in step six rounds.

*Proved* (`MunkresProps.v`): `munkres_optimal`, `munkres_reuse`.

### C19 The Munkres solver always finds an assignment

As C18. **Disagreement:** `run_assignment` sums the costs and gives up when the sum is not positive, so every matrix of zeros, for which any permutation is optimal, is reported as a failure.

*Partial* (`MunkresProps.v`): `munkres_success`, `munkres_all_zero`, `munkres_success_refuted`.

### C20 The Jonker-Volgenant solver returns mutually inverse permutations

Column reduction, reduction transfer, two rounds of augmenting row reduction, the shortest-path search with its column list (three regions, swaps), and the path flipped back, over an arbitrary number type with arbitrary operations. `lapjv_inverse` needs only a class of numbers that the operations do not leave and that lie below the largest number of the type (no overflow): rounding may be anything. The row reduction has no bound in the source, so exhaustion of the fuel is an outcome of its own there; for exact numbers `lapjv_returns` excludes it, for a share `eps` of any sign. The AVX2 version of `find_umins` is not modelled. In `sm_permutation` the third case passes `Nel[2]` where `Nel[1]` is meant; this caller is not modelled.

*Proved* (`LapjvProps.v`): `lapjv_inverse`, `lapjv_returns`.

### C21 The Jonker-Volgenant solver returns a minimum-cost assignment

The solver adds the margin eps = (sum of costs)/(10000 N) to its comparisons. With eps > 0 the row reduction assigns all rows, the search is never used, and the prices it ends with are those of an auction: `lapjv_cheapest_partial` gives the distance from the cheapest assignment. **Disagreement:** costs 0 0 0 / 0 5 0 / 0 299986 9 have an assignment of cost 0; the solver returns one of cost 9. A single large entry, used by neither, sets the margin for the small ones. Missing for the full statement: it is false. Not covered: matrices with a negative sum, where the margin is negative.

*Partial* (`LapjvProps.v`): `lapjv_cheapest_partial`, `lapjv_cheapest_refuted`.

### C22 The stable matching solver returns a stable matching

Preference lists by repeated minimum search (the largest number of the type is `None`), the proposal loop with its pass limit. Preferences are integers below the largest number. The matching part holds for whatever the columns prefer: a row that had been refused by every column would leave more columns than rows. **Disagreement:** line 135 compares `cpref[i*dim + i]` and `cpref[i*dim + csol[thisc]]`, the ranking made by column `i`, where the ranking made by `thisc` is meant; costs 1 9 / 2 5 give the matching 0-1, 1-0 although row 0 and column 0 prefer each other.

*Partial* (`SmpProps.v`): `smp_matching`, `smp_stable_partial`, `smp_stable_refuted`.

### C23 Applying a permutation and applying its inverse cancel

`apply_permutation` (in place, cycles) is correct for every permutation and list.
**Disagreement:** `apply_inverse_permutation` assigns the index instead of the object.

*Partial* (`UtilProps.v`): `apply_permutation_correct`, `apply_inverse_partial`, `apply_inverse_refuted`.

### C24 Symmetry motions form a group modulo lattice translations

`Motion` over `Z` matrices with translations as integers modulo a common denominator D:
group laws, equality, action on vectors and axial vectors.
`singular_inverse` and `identity_tests` fix what is done with singular motions and what the identity tests mean.

*Proved* (`BoundaryProps.v`, `MatrixProps.v`): `motion_group`, `motion_equality`, `vector_action`, `axial_cross`, `singular_inverse`, `identity_tests`.

### C25 Motions survive being written as text and read back

`to_ascii` (search for a fraction, the sign and number of each term) and `from_ascii` (collection of characters, integer and fraction parsing, the pushed-back semicolon) on character lists. `motion_text_round_trip_partial` covers every integer matrix and non-negative translations whose reduced numerator is below 256. **Disagreements:** a negative translation is written as `1/-2`, reading stops at the sign and throws (`motion_text_negative_refuted`); a fourth component is written past the end of the translation (`motion_text_in_bounds_refuted`). Not modelled: decimals (arbitrary functions) and the special form of a change of basis.

*Partial* (`MotionTextProps.v`): `motion_text_round_trip_partial`, `motion_text_negative_refuted`, `motion_text_in_bounds_partial`, `motion_text_in_bounds_refuted`.

### C26 Generating a symmetry group gives its closure

`Symmetry::generate` and `PointSymmetry::generate`, including their removal from the list
while iterating. Contains identity and generators, only products, no repetitions; closed
if each generator normalises the group generated by the earlier ones. **Disagreement:**
for a threefold and a twofold axis of the group 23 the result is not closed.

*Partial* (`SymmetryProps.v`): `sym_generate_basic_partial`, `sym_generate_closed_partial`, `sym_generate_refuted`, `ps_generate_basic_partial`, `ps_generate_closed_partial`, `ps_generate_refuted`.

### C27 Generators regenerate the group

`generators()`. **Disagreement:** `generate()` of them does not rebuild the groups 23
(and -6m2 in some order), a consequence of C26.

*Partial* (`BoundaryProps.v`, `SymmetryProps.v`): `sym_generators_partial`, `sym_generators_refuted`, `ps_generators_partial`, `ps_generators_refuted`, `proper_outside`.

### C28 Equality of symmetry sets ignores order

`Symmetry::operator==`: equality of sets when no operation repeats; with repetitions it is
not symmetric.

*Proved* (`SymmetryProps.v`): `sym_eq_set`, `sym_eq_repeated_refuted`.

### C29 Inverse lookup in a point group

`get_inverse_index`, `find_index`: searches over the stored list.

*Proved* (`SymmetryProps.v`): `get_inverse_correct`, `get_inverse_group`, `find_index_correct`.

### C30 Isometry classification

`isometry_type` and `rotation_order` for *every* integer matrix of finite order: trace and
determinant decide the order of the rotation part (characteristic polynomial and Cayley-
Hamilton). **Disagreement:** -1 and -3 are given the orders 1 and 3.

*Partial* (`MatrixProps.v`): `isometry_correct`, `reported_order`, `reported_order_refuted`.

### C31 Tabulated space groups resolve

The table of spg_database.cpp (530 entries) transcribed by script into `SpgTable.v`; the
look-ups as written. The table is genuinely finite, so lemmas about it are by computation.
**Disagreement:** group 230 is not found by number (loop bound); three Hall symbols are
those of other entries.
`hall_number_outside`, `unknown_name`: what is done with numbers and names that are not in the table.

*Partial* (`BoundaryProps.v`, `SpgProps.v`): `number_lookup_partial`, `number_lookup_refuted`, `number_choice_lookup`, `hall_symbol_lookup`, `hall_symbol_unique_partial`, `hall_symbol_refuted`, `hall_number_outside`, `unknown_name`.

### C32 Tabulated Hall symbols generate space groups

`HallModel.v` models `HallSymbol::from_ascii` as a machine over the characters of the text (lines 22-103, including the peek at the end of the stream and `strchr` finding the terminating zero), `validate`, `get_generators` with the explicit and implicit axes, and `get_spacegroup_symmetry`. Translations are in twelfths. The table is finite: the check runs over all 530 entries by `vm_compute`, with a quicker version of `generate` that keeps a set of codes and is proved to give the list of the model (`fgenerate_spec`). Closure under multiplication by the generators is checked, from which closure follows for all products. The statement first said that the order divides 192; this is false for the seven R entries (orders 9, 18, 36), and the exact order is stated instead. A change of basis written other than by three integers is read by an arbitrary function; the table has none.

*Proved* (`HallProps.v`): `tabulated_groups`.

### C33 Hall symbols survive being written and read back

For every text that is accepted and gives no change of basis the symbol read back from its text is the same (`hall_text_partial`): everything read consists of characters that are written (invariant over the loop), and the loop over a written text is followed symbol by symbol. Texts containing the character zero are excluded. **Disagreement** (`hall_text_refuted`): `to_ascii` leaves out the change of basis, and for entry 440 the text read back generates another group.

*Partial* (`HallProps.v`): `hall_text_partial`, `hall_text_refuted`.

### C34 3x3 integer matrix algebra

3x3 (and NxMxK) multiplication, determinant, cofactors, inverse, trace, transpose as the
loops in utilities; exactness of the integer inverse. Outside of the statement: the
in-place transpose assumes three columns.
`vector_matrix`: a row vector times a matrix.

*Proved* (`BoundaryProps.v`, `MatSmallProps.v`, `MatrixProps.v`): `multiply_arrays_correct`, `matrix_algebra`, `matrix_inverse_unimodular`, `matrix_inverse_singular`, `matrix_inverse_exact_iff`, `transpose_correct`, `transpose_inplace_refuted`, `adjoint_one`, `adjoint_two`, `vector_matrix`.

### C35 Conversion to and from the primitive cell is exact

`PrimitiveTransform` for each centring, over `Q` and with the integer casts.
**Disagreement:** vectors with integer elements lose fractions.
`other_unit`: vectors of another unit are refused.

*Partial* (`BoundaryProps.v`, `PrimitiveProps.v`): `to_primitive_and_back`, `from_primitive_and_back`, `primitive_scalar_product`, `primitive_same_position`, `integer_real_round_trip`, `integer_reciprocal_round_trip`, `integer_round_trip_refuted`, `other_unit`.

### C36 Vertex numbering survives parallel grid construction

`VertexMapSet` (kept lattice points, extra points and the rows allocated for them), `VertexIndexMap`, `combine` with its four rounds of replacement, the pairwise reduction, `consolidate` and the part of `construct` which numbers vertices, over any type of points and any equivalence as comparison. `vertex_numbering`: for any number of workers and any distribution of nodes, the construction succeeds, every number of a node or of the boundary leads to the wanted point, no point occurs twice, nothing else is in the list, and among the points of nodes exactly the lattice points have the numbers below some bound. `vertex_count`: the length of the list does not depend on the distribution. Simplified: the comparison is exact (an equivalence), numbers do not overflow; the geometry that decides which vertices a node has is an input.

*Proved* (`VertexMapProps.v`): `vertex_numbering`, `vertex_count`.

### C37 Extra triangulation points are numbered correctly by concurrent workers

The unprotected accesses to `vertices_` in the parallel loop of `part_two` as steps of workers under any schedule. **Disagreement:** two workers that each add a point can record the same number (`extra_points_numbered_refuted`), or one addition can be lost (`extra_points_kept_refuted`); on top of this the concurrent assignment is itself undefined behaviour, which the model does not need. `extra_points_numbered_partial` covers all schedules with at most one adding worker.

*Partial* (`ExtraBudgetProps.v`, `ExtraPointProps.v`): `extra_points_numbered_partial`, `extra_points_numbered_refuted`, `extra_points_kept_refuted`, `extra_points_budget`.

### C38 Removing dangling faces ends in a clean polyhedron

`remove_dangling_faces`: it ends in the largest part of the faces without dangling
vertices (greatest fixed point).

*Proved* (`PruneProps.v`): `dangling_faces`, `dangling_faces_unchanged`.

### C39 Re-indexing after removing points preserves geometry

`polygon_face_vertex_purge`, `remove_faceless_points`, `remove_points_and_update_...`,
`remove_duplicate_points_and_update_...`. The reordering around a polygon is an arbitrary
permutation. **Disagreement:** with equality within a tolerance, which is not transitive,
removing duplicates leaves numbers beyond the points.
`remove_points_long`: more flags than points is an error.

*Partial* (`BoundaryProps.v`, `PruneProps.v`): `purge_points`, `faceless_points`, `marked_points`, `marked_points_sorted`, `marked_points_none`, `duplicate_points`, `duplicate_points_refuted`, `remove_points_long`.

### C40 Face lists are compared up to rotation and order

`Faces::operator!=`: exact characterisation. **Disagreement:** an empty face equals nothing.

*Partial* (`FacesProps.v`): `faces_compare`, `faces_compare_refuted`.

### C41 Listing polyhedron edges is memory safe

`Faces::edges` with its buffer of F+V-2 edges. **Disagreement:** out-of-bounds write when
there are more.

*Partial* (`FacesProps.v`): `edges_outcome`, `edges_outcome_refuted`.

### C42 Cubic node interpolation weights

`CubeNode::indices_weights` over `Q`. **Disagreement:** points outside are accepted and
extrapolated unless a product of distances exceeds the volume.

*Partial* (`WeightsProps.v`): `cube_weights_inside`, `cube_weights_outside_partial`, `cube_weights_outside_refuted`, `cube_weights_required_refuted`.

### C43 Tetrahedral interpolation weights

`tetrahedra_contains` and the weights over `Q` (Cramer's rule). **Disagreement:** with
`should_contain` an outside point is accepted.

*Partial* (`WeightsProps.v`): `tetrahedra_weights_inside`, `tetrahedra_weights_outside`, `tetrahedra_required_refuted`, `leaf_contains_correct`.

### C44 Trellis node numbering is a bijection and point location is correct

Trellis numbering and `find_bin`. **Disagreement:** the last knot is put in a bin past the
end.

*Partial* (`TrellisProps.v`): `numbering_is_a_bijection`, `bin_brackets_coordinate`, `bin_of_last_knot_refuted`.

### C45 Looking up the node of any point is memory safe

`node_subscript` and its neighbour search. **Disagreement:** on an upper face without
usable node the node list is read out of bounds.

*Partial* (`TrellisProps.v`): `lookup_below_upper_knots_is_safe`, `neighbours_are_the_adjacent_usable_nodes`, `lookup_on_upper_knot_refuted`.

### C46 Parallel interpolation is independent of the schedule

`interpolate_at` of the trellis as per-row writes of all threads in any order; errors and
exceptions included.

*Proved* (`InterpolateProps.v`): `interpolation_any_schedule`, `interpolation_finishes`, `interpolation_errors`.

### C47 Worker exceptions are never lost

`ThreadException` with workers in any interleaving. **Disagreement:** when there are two
exceptions and one is not derived from `std::exception`, one escapes the parallel region.

*Partial* (`UtilProps.v`): `workers_partial`, `workers_single`, `workers_escape`, `workers_refuted`.

### C48 Interpolation settings survive saving and loading

`set_cost_info`, `to_hdf`, `from_hdf` of the interpolator field by field. **Disagreement:**
the vector cost function is not restored. Also stated: which cost function each number
selects, which counts of elements each shape of data accepts, and that `!=` compares
every field.
`load_iff`: when the nodes of a trellis can be loaded.

*Partial* (`BoundaryProps.v`, `CostProps.v`, `CostSettingsProps.v`): `settings_round_trip_partial`, `settings_round_trip_refuted`, `empty_columns_refuted`, `settings_chosen`, `settings_loaded`, `counts_accepted`, `shapes_rejected`, `settings_comparison`, `load_iff`.

### C49 Vectors and pseudovectors rotate alike under proper rotations

The rotation kernels over a commutative ring. **Disagreement:** real-space vectors are
rotated by the inverse of what pseudovectors are.

*Partial* (`RotateProps.v`): `vectors_alike_partial`, `scalar_products_partial`, `vectors_alike_refuted`.

### C50 Phonon-like matrices are rotated for every number of atoms

`rip_gamma` for matrices, block by block. **Disagreement:** false for every number of atoms.
`gamma_matrices_partial`: the loop over matrices is right for the number of atoms that it is given.

*Partial* (`RotateProps.v`): `gamma_matrices_refused`, `gamma_matrices_refuted`, `gamma_matrices_partial`.

### C51 Serial and parallel nested interpolation agree

Both versions of `Nest::interpolate_at`. **Disagreement:** the serial one uses the shape of
the values for the vectors and reads the first weight of an empty list.

*Partial* (`InterpolateProps.v`): `nest_serial_agrees_partial`, `nest_serial_shape_refuted`, `nest_serial_fewer_refuted`, `nest_serial_missing_refuted`.

### C52 Relative neighbour tables are complete

`neighbours`, `neighbours_prime`, negative and four-fold variants.

*Proved* (`UtilProps.v`): `neighbours_correct`, `neighbours_prime_correct`, `neighbours_negative`, `neighbours4_correct`.

### C53 Moving a point into the Brillouin zone subtracts a lattice vector

`moveinto`, `part_moveinto_prim` (choice of the face, the loop and its limit), `isinside`, `point_inside_all_planes` and the conversion to and from the primitive lattice, for exact numbers. The rounding and the face products (square roots) are arbitrary functions. `moveinto_correct`: a result and the reported integers add up to the point and the result satisfies every plane inequality, stated with a normal vector and not with the orientation determinant of the code. `moveinto_defined`: otherwise an exception, never undefined behaviour, when the zone has faces.

*Proved* (`BzMoveProps.v`): `moveinto_correct`, `moveinto_defined`.

### C54 Moving a point into the irreducible zone reports the right rotation

`ir_moveinto` with `_inside_wedge_outer`, `find_identity_index` and `get_inverse_index` (C29). `ir_moveinto_correct`: point = transposed rotation times result plus lattice vector, the two indices name operations which undo each other, the result is in the wedge and the unturned one in the zone. Only the identity has to be among the operations; a missing inverse is an exception.

*Proved* (`BzMoveProps.v`): `ir_moveinto_correct`.

### C55 Phonon phase-table keys are injective

`GammaTable` construction and look-up.

*Proved* (`UtilProps.v`): `gamma_key_correct`, `gamma_table_correct`, `gamma_table_throws`.

### C56 Node container keeps nodes in insertion order

`NodeContainer` histories. **Disagreement:** replacing a node by one of another kind.

*Partial* (`TrellisProps.v`): `container_keeps_nodes`, `container_wrong_kind_refuted`.

### C57 Integer helper functions

`gcd`, `binomial_coefficient` with 64-bit wrap-around. **Disagreement:** 30 over 15.

*Partial* (`UtilProps.v`): `gcd_correct`, `binomial_partial`, `binomial_three`, `binomial_throws`, `binomial_refuted`.

### C58 Index-list utilities

Index-list utilities. **Disagreement:** empty lists.

*Partial* (`UtilProps.v`): `add_if_missing_correct`, `add_between_correct`, `all_present_correct`, `invert_lists_correct`, `unordered_list_correct`, `unique_list_correct`, `unique_list_refuted`, `same_cycle_partial`, `same_cycle_refuted`.

### C59 Convex hull planes bound the points

`find_convex_hull_planes` with its nested loops over three points, the collinearity test, the sides of the other points and the removal of equal planes. The specification uses signed volumes; `hull_planes` gives soundness, completeness and distinctness. Coordinates are integers (any finite set of floating point numbers is one up to scale), arithmetic is exact, unit normals are compared as directions, and what the binomial estimate does beyond 2^21 points is not covered. The conversion of lattice vectors to Cartesian ones is not modelled.

*Proved* (`HullProps.v`): `hull_planes`, `hull_throws`, `hull_flat`.

### C60 Reading custom symmetry text ends

`PointSymmetry::add(string)` on character lists. **Disagreement:** no text ends normally.

*Partial* (`UtilProps.v`): `add_text_never`, `add_text_refuted`.

### C61 Sorted tables compare equal

**Disagreement:** the order in which the threads append makes tables that map all pairs
alike compare unequal.

*Partial* (`SortingProps.v`): `sorted_tables_compare_equal_refuted`.

### C62 Sorting before any data is stored is harmless

**Disagreement:** `sort` divides by zero.

*Partial* (`SortingProps.v`): `sort_without_data_refuted`.

### C63 Permuting point operations

`permute` of `PointSymmetry`/`Symmetry`.

*Proved* (`SymmetryProps.v`): `permute_correct`.

### C64 Adding space inversion to a point group

`PointSymmetry::add_space_inversion`. **Disagreement:** it goes through `generate`, so for
-6m2 in a certain order operations are missing. `tabulated_point_inversion` adds that none is missing
for the point groups of the 530 tabulated groups as they come from the table, provided that the sort by
rotation order is stable; `std::sort` does not promise that, and `tabulated_point_inversion_refuted` is
an order of the point group of entry 483, sorted, that loses operations.

*Partial* (`SymmetryProps.v`, `TimeReversalProps.v`): `ps_add_inversion_partial`, `ps_add_inversion_refuted`, `ps_has_inversion`, `tabulated_point_inversion`, `tabulated_point_inversion_refuted`.

### C65 Order of a motion

`Motion::order`, cut at ten by the code; `motion_order_refuted` shows what it does for
order twelve.

*Proved* (`SymmetryProps.v`): `motion_order_correct`, `motion_order_refuted`.

### C66 Extracting rows

`extract` by index list: rows, errors.

*Proved* (`Array2Props.v`): `extract_correct`.

### C67 Element-wise results

`round`, `floor`, `ceil`, unary minus through linear indexing. **Disagreement:** on a view
with gaps they write out of bounds.

*Partial* (`Array2Props.v`): `elementwise_partial`, `elementwise_refuted`.

### C68 Node lookup finds a usable node holding the point

`node_subscript` followed by the containment test. **Disagreement:** the second check takes
two steps along one axis before one step along each of two axes.

*Partial* (`TrellisProps.v`): `lookup_finds_usable_node`, `lookup_in_separated_nodes_refuted`.

### C69 Node container file round trip

`NodeContainer::to_hdf`/`from_hdf`.

*Proved* (`TrellisProps.v`): `container_reads_back`.

### C70 Searching nested tetrahedra

`Nest` as a tree of tetrahedra; search over `Q`. The corners need only lie within the stored sphere. A leaf with the point inside wins over leaves with it on a face. See C131 for the construction.

*Proved* (`NestInsideProps.v`, `WeightsProps.v`): `nested_search_correct`, `nested_search_inside`.

### C71 Interpolated results are weighted sums

`Interpolator::interpolate_at` for values and vectors.

*Proved* (`InterpolateProps.v`): `interpolated_values`, `interpolated_vectors`.

### C72 Space-group name lookup

Name look-up over the finite table.

*Proved* (`SpgProps.v`): `name_lookup`.

### C73 Tabulated centring agrees with the symbols

Tabulated centring. **Disagreement:** forty B-centred entries are tabulated as primitive.

*Partial* (`SpgProps.v`): `table_centring_partial`, `table_centring_refuted`.

### C74 Phonon-like vectors are rotated, permuted and phased

`rip_gamma` for vectors, with the shared temporary buffer.

*Proved* (`RotateProps.v`): `gamma_vectors_correct`.

### C75 Rotation acts on every vector and matrix of every branch

`rotate_in_place` loops for real, reciprocal and axial kinds.
`rotate_errors`: operations that do not exist and rows that are too short.

*Proved* (`BoundaryProps.v`, `RotateProps.v`): `rotate_real`, `rotate_reciprocal`, `rotate_axial`, `rotate_errors`.

### C76 Permutation stored from an assignment

The double loop at the end of `munkres_permutation`, `jv_permutation` and `sm_permutation`.

*Proved* (`SmpProps.v`): `stored_permutation`.

### C77 The Jonker-Volgenant solver stays in its arrays for every matrix of floating point numbers

`lapjv_nan` is the same model on numbers with not-a-number, all comparisons with which are false. **Disagreement:** for a 3x3 matrix of not-a-number `find_umins` leaves the second column at -1, and line 385 reads `colsol[-1]`. `lapjv_inverse` is the part that holds.

*Partial* (`LapjvProps.v`): `lapjv_inverse`, `lapjv_nan_refuted`.

### C78 Moving a point into the irreducible wedge

`ir_moveinto_wedge`. `wedge_move_correct`: right for all points with an image in the wedge. **Disagreement** (`wedge_move_refuted`): for a point without one nothing is written, lines 346-351 test what the output held before, and zeros are in every wedge, so success is reported with a result that is unrelated to the point.

*Partial* (`BzMoveProps.v`, `BzWedgeProps.v`): `wedge_move_correct`, `wedge_move_refuted`, `wedge_move_kept`.

### C79 Points of the zone of a centred lattice can be moved without the primitive option

**Disagreement** (`moveinto_centred_refuted`): with a centred lattice and without the primitive option the points are converted to the primitive lattice, but the normals and face points are not (`get_primitive_normals` does nothing when the zone is not primitive), and the product of line 29 throws for vectors of different lattices. After the rounding no shift can be made (`moveinto_unshifted_partial`), and (9/20, 9/20, -9/20), in the zone of a body-centred cubic lattice, is rounded out of it and rejected.

*Partial* (`BzMoveProps.v`): `moveinto_unshifted_partial`, `moveinto_centred_refuted`.

### C80 A vertex set takes any number of extra points

From the model of C36. **Disagreement:** `construct_appended` allocates half as many rows as there are lattice points, and `insert` doubles the number of rows in use; with one lattice point both are zero and row 0 is written (`vertex_set_requests_refuted`). A trellis has at least eight lattice points, so its construction does not get there.

*Partial* (`VertexMapProps.v`): `vertex_set_requests_partial`, `vertex_set_requests_refuted`.

### C81 Generated operations have the centring of the Hall symbol

From the check of C32, with `getcentring` of `SymmetryModel.v`. The tabulated centring (C73) is wrong for the B-centred entries; the one found from the operations is right for all.

*Proved* (`HallProps.v`): `tabulated_centring`.

### C82 Accepted axis specifications are decoded as they are meant

`seitz_check` and `hall_check` state exactly what is accepted. **Disagreement:** `HallSymbol::validate` calls `SeitzSymbol::validate` on copies (`for (auto ss: this->symbols)`), so that its replacement of two primes by the double prime and of three by the asterisk is lost; only the first character of the axis is looked at later. `P 1 2''` is decoded like `P 1 2'` (`repeated_primes_refuted`), and the threefold axis in `P 2 2 3'''` gives the zero matrix (`three_primes_refuted`).

*Partial* (`HallProps.v`): `hall_check`, `seitz_check`, `repeated_primes_refuted`, `three_primes_refuted`.

### C83 Decoded rotations have their order, axis and sense

`seitz_rotation`: determinant, fixed axis, exact order and sense of each matrix; the sense is stated as the sign of the triple product of the axis, any vector, and its image.

*Proved* (`HallProps.v`): `seitz_rotation`.

### C84 Decoded translations are the sums of their parts

`seitz_translation_partial` relates the loop over the characters to an inductive description; `seitz_translation_single` says that the description determines the translation. **Disagreement** (`seitz_translation_refuted`): the switch over the axis has no case for the unnamed axis a-b, and a screw such as the second symbol of `P 3 21` loses its translation. No tabulated symbol has one.

*Partial* (`HallProps.v`): `seitz_translation_partial`, `seitz_translation_single`, `seitz_translation_refuted`.

### C85 The unique rotations are the distinct ones, in order of first appearance

`get_unique_rotations` as written, with the flag carried from one rotation to the next and the indices into the list. `firsts` is the specification. For an empty list the code reads its first entry: undefined.

*Proved* (`TimeReversalProps.v`): `unique_rotations`, `firsts_meaning`.

### C86 The point group of a tabulated space group is its set of rotations

`get_pointgroup_symmetry`, with any reordering function in place of `std::sort`. The group property follows from that of the motions (C32); the order is checked for each entry.

*Proved* (`TimeReversalProps.v`): `tabulated_point_groups`.

### C87 Adding space inversion to a space group gives a group

`Symmetry::add_space_inversion`. For every closed set of motions the result consists of motions of the set and their products with the inversion, all of them if the generators found generate the set, which is checked for the tabulated groups. **Disagreements:** `inversion_group_refuted`: for `P 4w` (entry 350) the eight motions are not closed under products, since conjugation with the inversion turns the screw into its mirror image; `inversion_keeps_refuted`: motions of the group 23 in a certain order are missing, because the generators found do not generate it (C27).

*Partial* (`TimeReversalProps.v`): `add_inversion_partial`, `tabulated_inversion`, `inversion_group_refuted`, `inversion_keeps_refuted`.

### C88 Every point group operation has a space group operation

The first part of `GammaTable::construct`: `add_space_inversion` on both, then `find_matrix_index` for each rotation.

*Proved* (`TimeReversalProps.v`): `point_to_space`.

### C89 The hull of points in convex position has them all as vertices, and the right faces

`Faces(vertices)` and `Poly(vertices)` as a whole: unique points, planes (C59), planes per point and their inversion, the test of the area with all its cases of division by zero, the sort by winding angle with its removal of corners, the purge and the final renumbering. The specification of a facet speaks of signed volumes and positions only. The proof shows by wrapping a plane around a corner that each corner is in at least three bounding planes, and that an angular order about the centroid of points in convex position is a convex polygon. Angles are compared as directions, the unit of length is a parameter (the area test compares a scaled number with one), arithmetic is exact; tolerances are nought.

*Proved* (`HullFacesProps.v`): `hull_polygons`.

### C90 The convex hull of any points that are not in one plane is right

As C89. **Disagreements:** (1) with a repeated point and nothing to purge, the numbers of the faces refer to the unique points but are used for the given ones; for 000 000 100 010 001 the vertex 001 is lost. (2) `face_has_area` takes the normal of the first three points of a face: when these are on a line it is 0/0, the area counts as none and the face is dropped. (3) It sums triangles from the point at distance one along the first vector, not from the first point; if the other points are on lines through that place the sum is nought and the face is dropped. (4) `sort_convex_polygon_face` removes corners without a left turn in one pass and does not step back, so a reflex corner can stay.

*Partial* (`HullFacesProps.v`): `hull_polygons`, `hull_duplicate_refuted`, `hull_colinear_refuted`, `hull_interior_refuted`, `hull_reflex_refuted`.

### C91 The convex hull of points in one plane is refused

As C89. **Disagreement:** `find_planes_containing_point` broadcasts no planes against one point; the result has one element, computed from the first, absent, plane. It holds for all lists of different points in one plane.

*Partial* (`HullFacesProps.v`): `hull_flat_unchecked`, `hull_flat_refuted`.

### C92 Cutting a convex polyhedron by a plane gives what is behind the plane

`CutModel.one_cut` follows `Faces::one_cut` with all the functions it calls: the search for a face in the plane, the flags of the vertices, the list of cut edges, the crossing points, the insertion into the two faces of an edge, the new face with its angular sort, and the four removals at the end. Coordinates are rational. `CutSpec.convex` says what a convex polyhedron is (points and faces) without using the model. The proof shows that cutting the boundary gives the boundary of the cut: a point of the polyhedron behind the plane is reached through a vertex (`lowest`, `cone`), each crossing point is between the ends of one edge, and each face is cut into a convex polygon. Planes through corners, edges and whole faces are included.

*Proved* (`CutProps.v`): `cut_by_plane`.

### C93 Cutting a convex polyhedron by several planes gives what is behind all of them

`CutModel.cut`, by induction over the planes; points inside are kept inside because two intersections of half spaces with the same points have the same inner points (`deep_same`).

*Proved* (`CutProps.v`): `cut_by_planes`.

### C94 The intersection of convex polyhedra

`CutModel.intersection` with the planes through the first three corners of each face.

*Proved* (`CutProps.v`): `intersection_of_polyhedra`.

### C95 A polyhedron contains the points that are not in front of a face

`CutModel.contains`. **Disagreement:** `point_inside_all_planes` takes `min_element` of an empty list when there are no faces, and dereferences it. The intersection of polyhedra that do not meet has no faces.

*Partial* (`CutProps.v`): `contains_inside`, `contains_nothing_refuted`.

### C96 The volume of a convex polyhedron

`VolumeModel.volume` sums the signed triangles as the code does. Independence of the origin is proved from the closed faces: each directed edge meets its reverse, so a sum over edges vanishes (`VolumeProofs.closed_sum`). For a point of the polyhedron all tetrahedra have the same sign. Trusted: that these tetrahedra tile the polyhedron, which is what volume means here.

*Proved* (`VolumeProps.v`): `volume_of_convex`.

### C97 The centroid of a convex polyhedron

`VolumeModel.centroid` with the squares of the code. The result for a polyhedron without vertices is the empty list, and division by a volume of zero gives no point. The mean of tetrahedron centres is a positive combination of points inside, hence strictly inside.

*Proved* (`VolumeProps.v`): `centroid_of_convex`.

### C98 The sphere around a polyhedron

`VolumeModel.circumsphere_radius2`: without the square root. That a convex function is largest at a corner needs each inside point to be a combination of corners; proved by cutting (`MoveProofs.farthest`).

*Proved* (`VolumeProps.v`): `circumsphere_of_convex`.

### C99 Mirrored, translated and centred polyhedra

`VolumeModel.mirror`, `translate`, `centre`.

*Proved* (`VolumeProps.v`): `mirror_of_convex`, `translate_convex`, `translate_volume`, `centre_at_origin`.

### C100 Dividing a polyhedron by a plane

`VolumeModel.divide`. **Disagreement:** `Faces::divide` subtracts the centroid from the vertices, cuts them with the plane that was given for the old position, and adds the centroid again. The plane that divides is the one moved by the centroid.

*Partial* (`VolumeProps.v`): `divide_partial`, `divide_refuted`.

### C101 Whether two polyhedra intersect

`VolumeModel.intersects`: cut by the planes of the other and compare the volume with zero; the code compares with a tolerance, which the model sets to zero.

*Proved* (`VolumeProps.v`): `intersects_convex`.

### C102 The volume is that of a set of points

`VolumeModel.volume`. The faces of the two polyhedra lie in the same planes, the corners of a face are determined by the set, and so are its edges; the volume is written as a sum over edges (`SameSetProofs`).

*Proved* (`ZoneProps.v`): `volume_of_set`.

### C103 A search for the first Brillouin zone

`ZoneModel.voro_search`: the neighbour indices of `NeighbourModel`, planes through half of each lattice vector, the bounding box, and `CutModel.cut`. Sorting is a parameter, any permutation. Points are in the xyz frame with rational coordinates; lengths that the code divides by are left out. `search_wide` needs no reduced basis: the points found are bounded, far lattice points give no condition and near ones have bounded coefficients.

*Proved* (`ZoneProps.v`): `search_exact`, `search_wide`, `search_narrow`.

### C104 The construction of the first Brillouin zone ends

`ZoneModel.construct_first`: the loop of `construct` with a bound on the number of searches; running out of it is a different outcome, which the theorem excludes. Equal zones have equal volumes by C102.

*Proved* (`ZoneProps.v`): `construct_ends`.

### C105 The constructed polyhedron is the first Brillouin zone

As C104. **Disagreement:** the loop stops when two searches in a row give the same volume, and that can happen before the zone is reached. For the basis (1,0,0), (3,1,0), (0,0,1) of the unit cubes the first search gives a box, the second a parallelepiped, both of volume 2. `construct_obtuse_partial` covers the bases that are reduced in the sense of Selling, where at most three searches are needed.

*Partial* (`ZoneProps.v`): `construct_wide_partial`, `construct_obtuse_partial`, `construct_refuted`.

### C106 The volumes on the two sides of a plane

The models of `one_cut` (C92) and `volume` (C96). The proof writes the volume as a sum over the edges of the faces and gives each of the two parts its share of every edge; the edges in the plane of the cut cancel.

*Proved* (`TilesProps.v`): `volume_of_parts`.

### C107 Volumes decide whether parts cover a polyhedron

A theorem about the model of `volume` alone: the whole is cut by all planes of the parts one after the other, C106 adds up the volumes, and a piece that is in no part has a positive volume.

*Proved* (`TilesProps.v`): `volume_of_tiles`.

### C108 Symmetry operations on a polyhedron

Model: `ApplyModel` (components in the basis, the transposed matrix on them, the comparison of the normals that decides whether a face is turned, sorting of the turned face). The specification `carries` in `ApplySpec` states the map on points without the functions of the model. `LinearProofs` shows for linear maps in general that they take convex polyhedra to convex polyhedra and multiply volumes by the determinant.

*Proved* (`ApplyProps.v`): `apply_exact`.

### C109 The check of the irreducible zone

Model: `check_ir` and `higher` in `ApplyModel`, after check_if_mirroring_needed, with any order of operations that sorting may give. Proof: for a group it is enough to look at the overlap of the part with its images, the volumes decide about covering (C107). FINDING (`check_ir_refuted`): the inversion is never tested for an overlap since its order is 1. The search only proposes parts cut by planes through the origin, for which this makes no difference (`check_ir_partial`).

*Partial* (`ApplyProps.v`): `check_ir_partial`, `check_ir_inversion_partial`, `check_ir_refuted`.

### C110 The irreducible zone of triclinic lattices

Model: `TriclinicModel` (`wedge_triclinic`, the branches of `construct` after the first zone, `face_normals`). The first zone is that of C104, which the inversion keeps whether or not it is the true first zone (C105). `wedge_brute_force` is a parameter.

*Proved* (`ApplyProps.v`): `triclinic_zone`.

### C111 The points of the faces are half lattice vectors

Model: `FacePointModel.face_points`. The corners of a face are points of the zone on one of the planes of the search, and the zone of a lattice vector reflects the face through its centre; the corners come in opposite pairs, so their average is the centre. The lattice vector is found among the planes that bound the zone (`near_proof`).

*Proved* (`MoveZoneProps.v`): `face_points_exact`.

### C112 Moving points with the faces of the first zone

Model: `MoveZoneModel.zone_of` takes planes, normals and vectors from the polyhedron and gives them to the model of `moveinto` (C53). Lengths are not rational; in place of N_hkl = (q.n)/(|n||t|) the model has q.n/(n.t), which is the same because n and t are parallel (C111), and the scalar products with normals are compared by their squares with sign. Bases are right handed, as `to_xyz` makes them.

*Proved* (`MoveZoneProps.v`): `moveinto_first_zone`.

### C113 Moving into the first zone succeeds

As C112. The loop always shortens a point whose translates are on no plane of a face, and there are finitely many shorter translates. **Disagreement:** `last_shift` only protects against one step back. When a point is on the planes of two pairs of opposite faces, both of which are at a greater distance than the face it is outside of, the loop exchanges the two pairs of faces and never takes the step that is needed. The first rounding can produce such a point from one that is in the zone. Also, the code limits the number of steps to the number of faces; that this is enough in general is not proved.

*Partial* (`MoveZoneProps.v`): `moveinto_ends_partial`, `moveinto_orthogonal_partial`, `moveinto_stuck_refuted`.

### C114 Which irreducible zone the search accepts

Model: `WedgeModel` (`check`, `mirroring`, `halve`, `divide_once`, `finish`, `attempts`, `search`). The selection of normals from special points (`bz_wedge.cpp` 43-359) is left open: the theorem holds for every list of them, zero normals included. The hull of a half and its mirror image is a function of which `search_irreducible` assumes what `within_hull` (WedgeHullSpec) says; `search_irreducible_partial` assumes nothing of it and proves only the flag for results that come from it. That the normals delimit a hull rests on `irreducible_is_wedge`: an irreducible part of a zone around the origin always is cut from it by planes through the origin. The flag `no_ir_mirroring` is true after every successful construction, so the branches of `get_ir_polyhedron` and of the moves that mirror are not reached.

*Proved* (`WedgeHullProps.v`, `WedgeProps.v`): `search_irreducible`, `search_irreducible_partial`, `search_defined`, `irreducible_is_wedge`.

### C115 The normals of the wedge

Model: `WedgeModel.wedge_normals`. Faces of the part in a plane of a face of the zone are left out, the others contain the origin; the pairing of opposite normals removes nothing from a part with inner points.

*Proved* (`WedgeProps.v`): `wedge_normals_exact`.

### C116 The search takes right candidates

As C114. **Disagreement:** `divide_once` (lines 400-447) stops at the first face normal whose half has the right volume and does not look at overlaps, and the later check does not go back to the other normals. For a cuboid, the group of a two-fold axis along x with inversion and the candidate normal y, the face normal z is chosen; its half overlaps its images, while x would have been right, and the construction throws.

*Partial* (`WedgeProps.v`): `search_finds`, `search_finds_refuted`.

### C117 Operations keep the first zone

Hypothesis `kept` of C109 and C114 follows from preserved lengths. A point of the zone is not farther from the origin than from any lattice point; an operation permutes the lattice points.

*Proved* (`WedgeProps.v`): `group_keeps_zone`.

### C118 Putting polyhedra together

`join` is `Poly::combine`: renumbered points, the double loop over faces with its flags, the faces that are left. Every face of one polyhedron has at most one partner in the other, and partners run in opposite directions, because otherwise the two would have inner points in common; so the double loop drops exactly the pairs, and the contributions of a pair to the volume cancel. Two witnesses show what the iterator version of `std::is_permutation` does with faces of different lengths: `join_undefined_refuted` (a box and a prism on part of its face) and `join_volume_refuted` (the same the other way round).

*Partial* (`CombineProps.v`): `join_face_to_face`, `join_undefined_refuted`, `join_volume_refuted`, `join_nothing`.

### C119 Looking up atoms

`closest_to` and `equivalent_to` are modelled with the differences wrapped to at most half a cell, the comparison with absolute and relative tolerance (against zero, so that the relative one only scales), `std::min_element` with its use of the first element, and the default 0 for other types. The specification says `agree_mod` (equal up to a lattice vector and the tolerance) and `far` (sum of squares). Two refuted parts: `closest_to_other_refuted`, `closest_to_none_refuted`.

*Partial* (`BasisProps.v`): `basis_types`, `equivalent_to_exact`, `closest_to_exact`, `closest_to_other_refuted`, `closest_to_none_refuted`.

### C120 Moving atoms so that they obey the symmetry

`snap_to` is the loop over atoms with its sum of differences over the operations that bring the atom nearest to itself, and the final check. `snap_to_partial` shows that the average over the group is fixed by the group: the sum of all rotations maps every difference to an invariant one. `snap_to_refuted` is the case the averaging does not cover, atoms that operations exchange.

*Partial* (`BasisProps.v`): `snap_to_exact`, `snap_to_partial`, `snap_to_refuted`.

### C121 Cosines and sines of the angles of a lattice

`math::cosd`, `sind` and `cos_and_sin_d` are modelled over the real numbers with `remquo` as the standard defines it: the nearest multiple, ties to even, and any number of at least two low bits of the quotient with its sign (the standard guarantees three). The specification is cosine and sine of the angle in radians. The unit that `inter_facial_angles_to_cosines_sines` assumes when none is given is part of the statement.

*Proved* (`AngleProps.v`): `cosines_and_sines`, `angle_unit_guessed`.

### C122 Lengths and angles of the dual lattice

`unit_parallelpiped_volume` and `dual_lattice_parameters`. The specification does not use the formulas: it takes any basis with the given lengths and cosines and its dual basis (scalar products 2π or 0) and says that the result are the lengths and cosines of the dual one. Proved from the Gram determinant being the square of the triple product.

*Proved* (`LatticeProps.v`): `dual_lattice_parameters`.

### C123 Basis vectors from lengths and angles

`set_vectors` for lengths and angles, without snapping (that is C126). Exceptions are characterised: for angles between 0 and 180 degrees it throws exactly if there is no basis of independent vectors with them. `parameters_come_back` says that `lengths` and `angles` return what was given.

*Proved* (`LatticeProps.v`): `vectors_from_parameters`, `parameters_come_back`, `impossible_parameters_throw`.

### C124 Basis vectors from a matrix, and their use

`set_vectors` for a matrix, `metric_from_column_vectors`, `to_xyz`, `from_xyz`, `volume`, `length`, `angle`. `singular_matrix_refuted`: `mat_inverse` gives a zero matrix for singular ones (`linear_algebra.hpp`), and `set_vectors` does not test for that.

*Partial* (`LatticeProps.v`): `vectors_from_matrix`, `to_and_from_xyz`, `metric_tensor`, `metric_of_dual`, `volume_of_dual`, `lengths_of_vectors`, `angles_of_vectors`, `singular_matrix_refuted`.

### C125 The standard orientation

`standard_orientation_matrix` is always a rotation, but it is the one that was wanted only if the first vector has a positive z component, or is along the positive x axis (then with restrictions for the second vector). `orientation_refuted`: a=(3,4,0) is not turned at all, because tan(nu) = -az/(ax cos(mu)) has lost the y component when az is zero. `reassembled_vectors` and `reassembled_same` say that with a right rotation the new vectors have the parameters wanted and the old directions.

*Partial* (`OrientProps.v`): `orientation_rotation`, `orientation_up_partial`, `orientation_flat_partial`, `orientation_refuted`, `reassembled_vectors`, `reassembled_same`.

### C126 Lattices are made to have their symmetry

`snap_to_symmetry` and `snap_basis_vectors_to_symmetry`. Lengths are right for every group. Four defects: `snap_off_refuted` (right angles are not enforced for primitive lattices whose vectors are not linked: three two-fold axes and a cosine of 0.006 are accepted as they are, result "nothing to do"), `snap_changes_refuted` (a rhombohedral lattice whose second vector is reversed has cosines of different signs, which are averaged, so that a lattice with the symmetry loses it), `snap_throws_refuted` (a cubic lattice with c along the diagonal of a face throws, since a dual vector may be linked although the vector is not), `snap_turns_refuted` (correcting a by less than a hundredth turns the lattice by 53 degrees, from C125).

*Partial* (`SnapProps.v`): `snap_lengths`, `snap_vectors_partial`, `snap_nothing`, `snap_off_refuted`, `snap_changes_refuted`, `snap_throws_refuted`, `snap_turns_refuted`.

### C127 Arithmetic of arrays

`ArithModel`: the operators of `array_functions.hpp` and the in-place ones of `array2.tpp`, over the broadcast iterator of C03 and the arrays of C05; the operator is a parameter that may fail (integer division by zero). `shared` says that the operand is a handle to the same storage, so reads see earlier writes; `in_place_array` asks only that no element is read after it was written. Defects: `scalar_minus_array_refuted` (`10 - a` is computed as `a - 10`: the macro for scalar first uses `out -= b`), `in_place_own_row_refuted` (`a -= a.view(0)` subtracts zeros from the later rows), `in_place_own_element_refuted` (`a -= a[0]`, whose operand is a reference), `array_arithmetic_empty_refuted`, `array_with_list_length_refuted` (the number of values is only asserted). Different element types in mixed expressions with scalars are not modelled.

*Partial* (`ArithProps.v`): `array_arithmetic`, `array_arithmetic_incompatible`, `array_arithmetic_empty_refuted`, `in_place_array`, `in_place_with_itself`, `in_place_array_rejected`, `in_place_own_row_refuted`, `in_place_scalar`, `in_place_own_element_refuted`, `in_place_own_last_element`, `array_with_scalar`, `scalar_with_array`, `scalar_minus_array_refuted`, `array_with_list`, `array_with_list_length_refuted`.

### C128 Approximate equality

`ApproxModel`: the tolerances and overloads of `approx_float.hpp` over `Q`, with what they use of `numeric_limits` as a record, so that the theorems hold for every type (`proper`). Rounding of the sums, NaN, overflow and wrapping unsigned differences are left out. The comment in the source gives 5e-12 as absolute tolerance, the code uses 5e-15. Everywhere else in this development approximate equality is idealised as equality; `approx_transitive_refuted` shows what is lost.

*Partial* (`ApproxProps.v`): `approx_scalar`, `approx_reflexive`, `approx_symmetric`, `approx_between`, `approx_vector`, `approx_equal`, `approx_default_tolerance`, `approx_transitive_refuted`, `approx_symmetric_refuted`, `approx_integer_tolerance_refuted`.

### C129 Comparisons with tolerance

`Comparer` of `comparisons.hpp` and `all`/`any` of arrays with a comparison. The lambdas of the class capture the object itself by reference, so copies of a `Comparer` use the original; only comparers used in place are modelled. `le_ge` throws in the constructor; `Array2::all` treats it separately and forgets the tolerances.

*Partial* (`ApproxProps.v`): `comparison_scalar`, `comparison_vector`, `comparison_order`, `all_elements_compare`, `all_elements_one_side`, `any_element_compares`, `one_side_tolerance_refuted`.

### C130 Vectors in the units of a lattice

`LvecModel`: `xyz`, `star` (method and function), `cross`, `dot`, `norm`, `+`, `-`, `cat`. Rows are a list of real vectors, lattices are equal when both stored matrices are (the code allows a tolerance). The specification `absolute` forms the linear combinations of the basis vectors and `paired` says which vectors are combined; nothing is said through metrics or volumes. Disagreement: the documentation of the function `star` promises the same magnitude, but the division by 2 pi that the method has is missing (nothing in the library calls it). Not modelled: in-place operators, rounding and permutation of lattice vectors.

*Partial* (`LvecProps.v`): `lattice_vectors_xyz`, `star_method_same_vectors`, `star_method_twice`, `star_function_same_vectors_refuted`, `star_function_two_pi`, `lattice_cross_products`, `lattice_cross_method`, `lattice_scalar_products`, `lattice_scalar_product_of_different_lattices`, `lattice_scalar_product_method`, `lattice_lengths`, `lattice_sums`, `lattice_negative`, `lattice_join`, `lattice_mixed_units_refuted`, `lattice_misfit_rows_refuted`.

### C131 Construction of a nest of tetrahedra

`NestBuildModel`: `construct`, `subdivide` with the growing array of vertices, `SimpleTet` around TetGen, and what is collected from the leaves. TetGen is a parameter: `tools_ok` says that it divides the hull of points which are not in one plane into tetrahedra or throws, and that a sphere holds its tetrahedron; `within_limit` that it makes at least one tetrahedron and none too large. `hull` is the intersection of the half spaces that hold the points. Simplified: the polyhedron of four corners has these four vertices (C89), and vertices coincide when equal. `nest_levels` says which volume limits each level: the exponent follows from the largest tetrahedron of the root, and a root of one tetrahedron is divided again with the limit of level `nb - 1`. An example TetGen that halves tetrahedra meets both assumptions.

*Proved* (`NestBuildProps.v`, `NestSizeProps.v`): `nest_construction`, `nest_construction_found`, `nest_leaves_small`, `nest_levels`, `nest_collected`.

### C132 Layers of tetrahedra of a mesh

`LayersModel`: the layers made by `triangulate`, the connections found with `intersects` (C89 and following) between tetrahedra of two layers, `locate` through the layers, `neighbours` and the keys. `tools_ok` as in C131, `radii_ok`: no sphere has a negative radius. That no connection is lost: a point of the polyhedron is moved a little into the tetrahedron above; it is then in a tetrahedron below that also holds the unmoved point, and moved a little into that one it is inside both, so the intersection has a volume; the spheres meet by the inequality of Cauchy and Schwarz. `layers_connected`: the connections are exactly those of tetrahedra that have a corner in or overlap the one above (`meets`). The factors of the volumes of intermediate layers are arbitrary (`layers_small`). **Disagreement:** `locate` uses the answer of the first layer as an index without looking whether it is `nTetrahedra`, the value for a point that was not found, and so reads `connections[0][nTetrahedra]` for every point outside (line 411; `layers_outside`). With one layer the answer is empty; `interpolate_at` of `mesh.hpp` throws then (line 152), but its threaded version (160-190) does not look and leaves the values unset.

*Partial* (`LayersProps.v`, `NestSizeProps.v`): `layers_construction`, `layers_small`, `layers_connected`, `layers_found`, `layers_outside`, `layers_locate_refuted`, `layer_neighbours`, `layers_neighbours_at`, `layer_keys_joined`, `layer_statistics`.

### C133 Comparing arrays with values, rows and other arrays

`CompareModel`, on the arrays of C09 and the comparisons of C128 and C129, for any two number types. `pointwise`: the result says at every place whether the element there has the property; `rows_hold`: all elements compare, or, for a negated comparison, not all satisfy what it denies; `turned`: repeated products with the rows of the matrix. **Disagreements:** `is` gives its result the strides of the array but storage for its elements only, so that the result for a view of part of an array is read, or already written, out of bounds, and `find` reports elements that are not in the view (`compare_part_refuted`); comparing an array stored by columns with a single row writes out of bounds for the same reason (`compare_broadcast_refuted`); `each_is` says that it goes through the array in linear order but reads `val(i)`, the element (i,0), and so goes out of bounds for more than one column (`compare_each_refuted`; the only use, in `triangulation_layers.hpp` 471, is for one column); `match` with an operator ignores the stride within a row (`match_by_operator_refuted`). The divisions of `match` are left out: a quotient by zero is not a number of the model.

*Partial* (`CompareProps.v`): `compare_elements`, `find_elements`, `compare_arrays`, `compare_broadcast`, `arrays_alike`, `compare_rows`, `compare_rows_vector`, `search_rows`, `compare_shapes`, `compare_each`, `match_by_turns`, `match_by_operator`, `compare_part_refuted`, `compare_broadcast_refuted`, `compare_each_refuted`, `match_by_operator_refuted`.

### C134 Normals of the cuts in the search for the irreducible wedge

`CuttingModel`, on the operations of C108 in the xyz frame: the three stages of the search (two-fold axes along simple directions, mirrors, and pairs of special points related by an operation), with the bookkeeping of points and operations and the bounded storage of normals; a normal beyond the last row is undefined behaviour, which is excluded. The order of the operations (`std::sort` does not fix it), the special points and the order of groups of points are arguments. The cross product is that of a right-handed basis, normals are not scaled to unit length, and the test of `have_volume` uses lattice units as the code does. `covers`: every point reaches the inner side of all planes by repeating the operation; `carries` and `independent` as in C108. `cuts_cover` uses that pairs of consecutive images of a point enclose an angle that divides the turn, and for two-fold turns that the plane contains the axis. **Disagreements:** for a two-fold axis along (1,0,-1) of the reciprocal lattice the table assumes that it is also [1,0,-1] of the direct lattice. This is not so in some bases of monoclinic lattices, although the test that the normal is along exactly one simple vector lets it pass (`two_fold_plane_refuted`; in the similar cases (1,1,0) and (0,1,1) this test is enough for entries -1, 0, 1, which the proof shows). With special_mirrors off, a mirror is treated as a two-fold turn about its normal, and the plane found is perpendicular to the mirror and does not cut what the mirror relates (`mirror_plane_refuted`, a cube). Wrong planes are noticed later by the comparison of volumes (C109, C114), so that the next of the eight attempts is made.

*Partial* (`CuttingProps.v`): `cuts_found`, `cuts_cover`, `two_fold_plane_refuted`, `mirror_plane_refuted`.

### C135 Stationary axis of an operation

`axis` in `CuttingModel`. `stationary`: the matrix times the vector is the determinant times the vector, which is not zero. The matrices with entries -1, 0 and 1 are enumerated and checked by `vm_compute`; that the axis found is stationary follows from the search for any matrix. **Disagreement:** for an operation with larger entries, possible in an unusual basis, the axis may be missing from the table; three zeros are then reported (`axis_far_refuted`, axis [1,4,0]). `PerpendicularModel`: the two vectors perpendicular to the axis. For the axes of the table all integer vectors of squared length up to 15 are compared by `vm_compute`; longer ones are longer than those found. **Disagreement:** perpendicular means that the product of the components is zero; in an oblique basis the vectors of the lattice with these components are not perpendicular (`perpendicular_direct_refuted`: a = (2,0,0), b = (1,1,0), c = (0,0,1), two-fold axis along a, second vector b).

*Partial* (`CuttingProps.v`, `PerpendicularProps.v`): `axis_found`, `axis_far_refuted`, `perpendicular_vectors`, `no_perpendicular`, `perpendicular_direct_refuted`.

### C136 Identification of the point group

`PointgroupModel`: the table of point groups with the numbers of operations of each kind, geometric class and Laue class (symbols left out), and the search in it. `PointgroupSpec`: the kinds of operations by determinant and trace, and the numbers of operations of each kind. `pointgroup_number` rests on the identification of operations of C30; the rows are compared with each other by `vm_compute`. `pointgroup_basis`: determinant and trace are the same in any basis. `tabulated_classes`: the check of all entries made for C86 also compares the number of the point group; the classes are compared for each of the different lists of operations. **Disagreement:** `ptg_get_pointsymmetry` compares each operation with as many collected ones as were given; the pointer to one that has not been collected is null and is read. This happens for any two different operations (`pointsymmetry_refuted`). `ptg_get_transformation_matrix` starts with it, hence what follows there (the choice of conventional axes by Laue class) is not modelled.

*Partial* (`PointgroupProps.v`): `pointgroup_number`, `pointgroup_none`, `pointgroup_basis`, `tabulated_classes`, `pointsymmetry_single`, `pointsymmetry_refuted`.

### C137 Products and decomposition of flattened matrices

`LinalgModel`, integers for products and rationals for the decomposition. The double loop over rows and columns is one loop over pairs; an assertion that fails is an exception. **Disagreement:** `LU_decomposition` has `N` for the number of elements and uses it for the number of rows: the second element compared is element `N` of `N` (`lu_refuted`, for every matrix with at least two rows). It is called nowhere.

*Partial* (`LinalgProps.v`): `dot_exact`, `dot_unequal`, `mat_vec_exact`, `vec_mat_exact`, `mat_mat_exact`, `lu_one`, `lu_refuted`.

### C138 Groups of special points that an operation takes to each other

`CuttingModel`, `all_points`, part of the search of C134, on its own. The specification has only the places of points after a number of turns. A point on the axis stands at no turns and the other places of its group are left empty, as the code marks it as used. **Disagreement:** for a three-fold rotoinversion `match` with order -3 accepts 0 to 3 turns, and 3 turns are the inversion; the loop that places the points has 0 to 2 turns. The opposite of a point is therefore marked as found and then dropped (`points_lost_refuted`). Operations of this kind do get here: `higher(1)` keeps them.

*Partial* (`GroupingProps.v`): `points_grouped`, `points_lost_refuted`.

### C139 Special points of the first Brillouin zone

`HalfEdgeModel` on top of `edges` of C41 and `face_points`. The convexity part is stated for every half-space, so it holds for the faces of any convex polyhedron.

*Proved* (`HalfEdgeProps.v`): `special_points_found`.

### C140 Settings of approximate comparison made one after the other

`ConfigModel`: an object and, once a setter has returned a copy, the copy. **Disagreement:** `direct(value)` returns `Config` and the others `Config &`, although the comment says all are for chaining: `config.direct(a).reciprocal(b)` leaves the second tolerance of `config` unchanged (`settings_object_refuted`). The calls in the repository are single ones.

*Partial* (`ConfigProps.v`): `settings_value`, `settings_object`, `settings_object_refuted`.

### C141 Search for the irreducible wedge from the first zone and its operations

`WedgeFullModel` joins the special points (C139), the normals (C134) and the search from given normals. The three sorts are arbitrary permutations; the normals of all eight attempts are found at the start instead of one attempt after the other, which changes nothing as they depend only on the first zone and never fail (part of the proof). `attempts_differ` is about the finite table of the eight settings. `wedge_search_irreducible` covers parts that are hulls, under the assumption on hulls of C114. As a test, not a proof, the model was run with stable sorts on a cube for the groups 2/m (three settings of the axis), mmm (two), -3, -3m, m-3 and 4/mmm and found an irreducible part for each.

*Proved* (`WedgeFullProps.v`, `WedgeHullProps.v`): `wedge_search_irreducible`, `first_zone_wedge`, `wedge_search_whole`, `one_axis_flag`, `attempts_differ`.

### C142 Searching an array by comparison with a value

`CompareCountModel` is the three loops over the linear index with the comparisons of C133. The order of the elements is that of storage, by rows or by columns. **Disagreement with the code:** the linear index is turned to a place in memory by adding the offset only, so on a view of some columns (`view(0,1)` of three columns) `count` finds an element outside the view and misses one inside (`count_elements_refuted`).

*Partial* (`CompareCountProps.v`): `count_elements`, `count_elements_refuted`.

## Parts of the code that are not modelled

* The order of equal elements in the sorting of operations in the search for the irreducible wedge (`bz_wedge.cpp` 67-87; any order in C141), and the
  convex hull of the union of two polyhedra; triangulation (TetGen).
* `PointGroup` beyond what C85-C88 and C136 say (conventional axes by Laue class), of lattice vectors (`lvec`) what C130 leaves out, and of `Lattice` (`lattice_dual.hpp`) what C121-C126 and
  the primitive transforms leave out: approximate comparison of lattices, setting the symmetry, input and output.
* Debye-Waller factors, of the meshes what C131 and C132 leave out,
  the Python bindings and everything in `wrap/` and `brille/`.
* HDF5 input and output except for the classes named above.

## Assumptions

`Print Assumptions` answers "Closed under the global context" for 444 of the 487
theorems named in `MANIFEST.json`. The others are about real numbers and rest on axioms of the
standard library's construction of the reals (and classical logic there), as listed:

* `ClassicalDedekindReals.sig_not_dec`, `ClassicalDedekindReals.sig_forall_dec`, `FunctionalExtensionality.functional_extensionality_dep`, `Classical_Prop.classic`: `angle_unit_guessed`, `angles_of_vectors`, `cosines_and_sines`, `impossible_parameters_throw`, `lattice_mixed_units_refuted`, `orientation_flat_partial`, `orientation_refuted`, `orientation_rotation`, `orientation_up_partial`, `parameters_come_back`, `reassembled_same`, `reassembled_vectors`, `snap_nothing`, `snap_turns_refuted`, `snap_vectors_partial`, `star_function_same_vectors_refuted`, `vectors_from_parameters`.
* `ClassicalDedekindReals.sig_not_dec`, `ClassicalDedekindReals.sig_forall_dec`, `FunctionalExtensionality.functional_extensionality_dep`: `dual_lattice_parameters`, `lattice_cross_method`, `lattice_cross_products`, `lattice_lengths`, `lattice_misfit_rows_refuted`, `lattice_scalar_product_method`, `lattice_scalar_product_of_different_lattices`, `lattice_scalar_products`, `lattice_vectors_xyz`, `lengths_of_vectors`, `metric_of_dual`, `singular_matrix_refuted`, `snap_changes_refuted`, `snap_lengths`, `snap_off_refuted`, `snap_throws_refuted`, `star_function_two_pi`, `star_method_same_vectors`, `star_method_twice`, `to_and_from_xyz`, `vectors_from_matrix`, `volume_of_dual`.
* `ClassicalDedekindReals.sig_forall_dec`, `FunctionalExtensionality.functional_extensionality_dep`: `lattice_join`, `lattice_negative`, `lattice_sums`, `metric_tensor`.

`vcheck` also lists axioms from `Coq.ssr.ssrunder`: these belong to a module that the
standard library's `Setoid` loads; no theorem here depends on them.
