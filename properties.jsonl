{"id": "C01", "title": "Subscript iteration is exhaustive", "statement": "Iterating over the subscripts of an array of any rank whose dimensions are all non-zero ends, and visits every valid subscript exactly once, in row-major order.", "quantifier": "every rank and every shape with non-zero dimensions", "why_tests_cant": "Rank and extents are unbounded; a carry error shows only for particular combinations of extents.", "anchors": ["src/subscript.hpp: SubIt, SubIt2, operator++, begin, end"]}
{"id": "C02", "title": "Partially fixed subscript iteration", "statement": "Iterating with some subscripts fixed visits exactly the valid subscripts which agree with the fixed values, each once, in row-major order over the free dimensions, and raises an error when nothing is left free.", "quantifier": "every shape with non-zero dimensions and every choice of fixed subscripts", "why_tests_cant": "The number of (shape, fixed set) combinations is unbounded; sampled tests fix only the last dimension.", "anchors": ["src/subscript.hpp: SubIt(shape,inpt), is_fixed, find_first, operator++, end"]}
{"id": "C03", "title": "Broadcast iteration pairs elements correctly", "statement": "For two shapes that agree in each dimension up to singletons, broadcasting visits each subscript of the combined shape exactly once, pairs it with the two operand subscripts obtained by replacing the singleton dimensions by zero, and never names a subscript outside either operand; incompatible shapes raise an error.", "quantifier": "all pairs of shapes of equal rank", "why_tests_cant": "Out-of-range operand accesses appear only for particular shape pairs (for example an empty operand against a singleton) and are silent when they occur.", "anchors": ["src/subscript.hpp: BroadcastIt, BroadcastIt2", "src/array_functions.hpp: operator+-*/"]}
{"id": "C04", "title": "Linear index and subscript conversion are inverse", "statement": "Converting a linear index of an array to a subscript and back, with the strides of the array, gives the same linear index, and every valid subscript survives the converse trip, for row-ordered and for column-ordered arrays.", "quantifier": "every rank, every shape with non-zero dimensions, both orders, every index in range", "why_tests_cant": "Unbounded shapes; the column-ordered path is rarely exercised.", "anchors": ["src/subscript.hpp: lin2sub, sub2lin"]}
{"id": "C05", "title": "Array storage is released exactly once and never used after release (sequential histories)", "statement": "However array handles that share storage are created, copied, viewed, assigned over and destroyed by one thread, the storage stays allocated as long as a live handle refers to it, and is released exactly once, no later than when the last handle goes.", "quantifier": "every finite sequence of handle operations by one thread", "why_tests_cant": "Histories are unbounded and a double release or leak depends on the order of operations.", "anchors": ["src/array2.hpp: constructors, destructor, operator=, decouple", "src/array.hpp: the same"]}
{"id": "C06", "title": "Array storage is released exactly once when handles are dropped concurrently", "statement": "When several threads drop handles that share storage, every interleaving releases the storage exactly once and after the last use.", "quantifier": "every interleaving of any number of concurrent destructor calls", "why_tests_cant": "The failing interleaving needs a preemption between two machine instructions.", "anchors": ["src/array2.hpp: ~Array2", "src/array.hpp: ~Array"]}
{"id": "C07", "title": "Row views address exactly the viewed rows", "statement": "A view of row i, of rows [i,j) or of the trailing block that starts at a given subscript of an array, and any view of such a view, reads and writes only elements of the array it was taken from, element (a,b) of the view being the element of its parent that lies (a,b) after the start of the view; asking for rows that are not there raises an error.", "quantifier": "every array, every chain of views, every element", "why_tests_cant": "Chains and extents are unbounded, and an off-by-one view stays inside the shared buffer so no sanitizer sees it.", "anchors": ["src/array2.tpp: view", "src/array2.hpp: ij2l_d"]}
{"id": "C08", "title": "Resizing and appending preserve contents", "statement": "Resizing an array along either dimension keeps every element whose subscript exists in both shapes; appending along a dimension gives the first array followed by the second.", "quantifier": "every pair of arrays of compatible shapes, both dimensions, both storage orders", "why_tests_cant": "Unbounded shapes and two storage orders.", "anchors": ["src/array2.tpp: resize, append", "src/array_functions.hpp: cat"]}
{"id": "C09", "title": "Reordering rows and deciding that two arrays are row permutations", "statement": "Permuting the rows of an array by a permutation p gives the array whose row i is the old row p(i); two arrays are reported to be permutations of each other exactly when they hold the same rows with the same multiplicities.", "quantifier": "every array and every permutation; every pair of arrays", "why_tests_cant": "Repeated rows and cyclic structure of the permutation make the space combinatorial.", "anchors": ["src/array2.tpp: permute, is_permutation"]}
{"id": "C10", "title": "A permutation vector between two arrays maps every row", "statement": "The permutation vector computed between two arrays that are row permutations of each other is a permutation of the row indices that carries one array to the other, also when rows repeat.", "quantifier": "every pair of arrays that are row permutations of each other", "why_tests_cant": "Needs repeated rows in particular places to fail.", "anchors": ["src/array2.tpp: permutation_vector"]}
{"id": "C11", "title": "Unique rows", "statement": "The unique rows of an array contain each distinct row exactly once in order of first appearance, and the unique-index list sends each row to the first row equal to it.", "quantifier": "every array", "why_tests_cant": "Unbounded inputs with arbitrary repetition patterns.", "anchors": ["src/array2.tpp: is_unique, unique_idx, unique"]}
{"id": "C12", "title": "A row-ordered contiguous copy is row ordered, contiguous and equal", "statement": "Asking an array for a contiguous row-ordered copy returns an array that is row ordered and contiguous and has the same elements at the same subscripts.", "quantifier": "every array in either storage order, including views", "why_tests_cant": "Failure needs column-ordered input of particular shapes.", "anchors": ["src/array2.tpp: contiguous_row_ordered_copy", "src/array2.hpp: is_row_ordered, is_contiguous"]}
{"id": "C13", "title": "Whole-array queries look only at the array's own elements", "statement": "all, any, count, first and last applied to an array, including a view onto part of another array, depend only on the elements of that array.", "quantifier": "every array and view", "why_tests_cant": "The difference shows only for views whose rows are not adjacent in storage.", "anchors": ["src/array2.tpp: all, any, count, first, last"]}
{"id": "C14", "title": "The permutation table is a faithful map from grid-point pairs to permutations", "statement": "For any sequence of registering pairs, storing and overwriting permutations and looking them up, looking up a pair returns the permutation most recently stored for it, and the identity permutation if none was stored; storing for one pair never changes what another returns.", "quantifier": "every sequence of table operations", "why_tests_cant": "The table de-duplicates permutations, so an aliasing error appears only for particular histories.", "anchors": ["src/permutation_table.hpp: PermutationTable"]}
{"id": "C15", "title": "Grid-point pair keys are injective", "statement": "Two different ordered pairs of distinct grid points never share a key, and sorting recovers from each registered key the two grid points it stands for.", "quantifier": "every grid size and every pair of points", "why_tests_cant": "Collisions would occur for isolated pairs in large grids only.", "anchors": ["src/permutation_table.hpp: ij2key, permutation_table_keys_from_indicies", "src/interpolatordual.hpp: sort"]}
{"id": "C16", "title": "Parallel mode sorting is independent of the schedule", "statement": "After sorting the stored data with any number of threads, the permutation returned for any pair of grid points is the same for every scheduling of the threads, and equal to the one found by a single thread.", "quantifier": "every number of threads, distribution of pairs to threads and interleaving", "why_tests_cant": "Interleavings cannot be enumerated by tests.", "anchors": ["src/interpolatordual.hpp: sort, determine_permutation_ij", "src/permutation_table.hpp: overwrite"]}
{"id": "C17", "title": "Sorting status flags and visit counter are independent", "statement": "In a sorting status, setting a flag changes only this flag, setting the visit count to v makes the reported count v and leaves the flags unchanged, and recording a visit adds one to the count or raises an error when the count is full.", "quantifier": "every status word and every sequence of operations", "why_tests_cant": "2^32 states; wrong bit masks affect states that tests do not visit.", "anchors": ["src/sorting_status.hpp: SortingStatus"]}
{"id": "C18", "title": "Munkres assignment is a minimum-cost permutation", "statement": "For every square matrix of non-negative costs the Munkres solver ends and yields, when it reports success, a one-to-one assignment of rows to columns with the least possible total cost.", "quantifier": "every size and every cost matrix", "why_tests_cant": "Optimality quantifies over n! assignments and all cost matrices.", "anchors": ["src/munkres.hpp: Munkres"]}
{"id": "C19", "title": "The Munkres solver always finds an assignment", "statement": "For every square matrix of non-negative costs the Munkres solver reports success.", "quantifier": "every size and every cost matrix", "why_tests_cant": "Degenerate matrices are a measure-zero set.", "anchors": ["src/munkres.hpp: run_assignment, get_assignment"]}
{"id": "C20", "title": "The Jonker-Volgenant solver returns mutually inverse permutations", "statement": "For every square matrix of ordinary numbers (no not-a-number, no overflow) the Jonker-Volgenant solver, when it returns, gives a row solution and a column solution that are permutations inverse to each other.", "quantifier": "every size and every cost matrix", "why_tests_cant": "Every size and every tie pattern of the costs.", "anchors": ["src/lapjv.hpp: lapjv", "src/permutation.hpp: jv_permutation_fill"]}
{"id": "C21", "title": "The Jonker-Volgenant solver returns a minimum-cost assignment", "statement": "The assignment returned by the Jonker-Volgenant solver has the least total cost among all assignments.", "quantifier": "every size and every cost matrix", "why_tests_cant": "Quantifies over n! assignments and all cost matrices.", "anchors": ["src/lapjv.hpp: lapjv"]}
{"id": "C22", "title": "The stable matching solver returns a stable matching", "statement": "For every cost matrix the stable-matching solver returns a one-to-one matching without a row and a column that both prefer each other to their assigned partners.", "quantifier": "every size and every preference matrix", "why_tests_cant": "All preference matrices of all sizes.", "anchors": ["src/smp.hpp: smp", "src/permutation.hpp: sm_permutation"]}
{"id": "C23", "title": "Applying a permutation and applying its inverse cancel", "statement": "Applying a permutation to a list of objects and then the inverse application with the same permutation restores the list, in either order, and object p(i) moves to place i.", "quantifier": "every list and every permutation", "why_tests_cant": "Fails or succeeds by the cycle structure of the permutation.", "anchors": ["src/permutation.hpp: apply_permutation, apply_inverse_permutation"]}
{"id": "C24", "title": "Symmetry motions form a group modulo lattice translations", "statement": "Composition of motions (integer rotation, fractional translation modulo one) is associative with the identity motion as unit, applying a composed motion to a point equals applying one after the other modulo a lattice translation, and a motion with unimodular rotation composed with its inverse is the identity.", "quantifier": "all motions with integer rotation and rational translation and all points", "why_tests_cant": "Algebraic laws over an infinite set.", "anchors": ["src/motion.hpp: operator*, inverse, move_point, move_vector, operator=="]}
{"id": "C25", "title": "Motions survive being written as text and read back", "statement": "Reading the x,y,z text written for a motion gives the same motion, and reading text never writes outside the motion.", "quantifier": "every motion and every input text", "why_tests_cant": "Infinite set of strings.", "anchors": ["src/motion.hpp: to_ascii, from_ascii"]}
{"id": "C26", "title": "Generating a symmetry group gives its closure", "statement": "The group generated from a set of motions contains the motions and is closed under composition.", "quantifier": "every finite set of motions with unimodular rotations", "why_tests_cant": "The order in which generators are combined matters only for particular groups.", "anchors": ["src/symmetry.cpp: generate", "src/pointsymmetry.cpp: generate"]}
{"id": "C27", "title": "Generators regenerate the group", "statement": "The generators reported for a closed set of motions generate exactly this set.", "quantifier": "every finite group of motions", "why_tests_cant": "Depends on the stored order of the operations.", "anchors": ["src/symmetry.cpp: generators", "src/pointsymmetry.cpp: generators"]}
{"id": "C28", "title": "Equality of symmetry sets ignores order", "statement": "Two symmetry-operation sets without repeated motions compare equal exactly when they hold the same motions, in whatever order.", "quantifier": "all pairs of finite lists of distinct motions", "why_tests_cant": "All orders of all sets.", "anchors": ["src/symmetry.cpp: operator==, has"]}
{"id": "C29", "title": "Inverse lookup in a point group", "statement": "For every operation of a point group, the reported inverse index names an operation whose product with it is the identity; asking in a set without the inverse raises an error.", "quantifier": "every finite set of unimodular integer matrices and every index", "why_tests_cant": "All groups and all operations in all stored orders.", "anchors": ["src/pointsymmetry.cpp: get_inverse_index, get_inverse, find_index, find_identity_index"]}
{"id": "C30", "title": "Isometry classification", "statement": "The type and order reported for an operation of a crystallographic point group agree with its determinant and with the smallest power that is the identity.", "quantifier": "every integer 3x3 matrix of finite order", "why_tests_cant": "All integer matrices of finite order, an infinite set.", "anchors": ["src/pointgroup.cpp: isometry_type, isometry_value, rotation_order, isometry_order"]}
{"id": "C31", "title": "Tabulated space groups resolve", "statement": "Every international space-group number from 1 to 230 resolves to a Hall entry with this number, and every tabulated Hall symbol resolves to the entry that carries it.", "quantifier": "all 230 numbers and all 530 entries", "why_tests_cant": "Finite, but tests cover a few numbers only.", "anchors": ["src/spg_database.cpp: international_number_to_hall_number, hall_symbol_to_hall_number, string_to_hall_number, hall_number_ok"]}
{"id": "C32", "title": "Tabulated Hall symbols generate space groups", "statement": "For each of the tabulated Hall symbols the parsed symbol is accepted and the generated operations form a group modulo lattice translations, without repetitions, whose order is that of the tabulated point group times the number of lattice points in the cell.", "quantifier": "all 530 tabulated Hall symbols", "why_tests_cant": "Finite, but group closure of each entry is checked by no test.", "anchors": ["src/hall_symbol.cpp: from_ascii, get_generators", "src/hall_symbol.hpp", "src/spg_database.cpp: get_spacegroup_symmetry", "src/symmetry.cpp: generate"]}
{"id": "C33", "title": "Hall symbols survive being written and read back", "statement": "Writing a parsed Hall symbol as text and parsing it again gives an equivalent symbol (same generated motions).", "quantifier": "every Hall symbol", "why_tests_cant": "Unbounded grammar.", "anchors": ["src/hall_symbol.cpp: from_ascii, to_ascii", "src/hall_symbol.hpp"]}
{"id": "C34", "title": "3x3 integer matrix algebra", "statement": "For 3x3 integer matrices the computed determinant is multiplicative, matrix times adjoint is the determinant times the identity, and the computed inverse of a unimodular matrix is its exact two-sided inverse.", "quantifier": "all integer 3x3 matrices", "why_tests_cant": "Infinite domain.", "anchors": ["src/utilities.tpp: matrix_determinant, matrix_adjoint, matrix_determinant_and_inverse, multiply_arrays"]}
{"id": "C35", "title": "Conversion to and from the primitive cell is exact", "statement": "For each centring, converting lattice vectors (real or reciprocal space) to the primitive cell and back is the identity, and the scalar product of a real-space with a reciprocal-space vector is unchanged by the conversion.", "quantifier": "all centrings and all vectors", "why_tests_cant": "Infinite set of vectors.", "anchors": ["src/primitive.hpp: PrimitiveTransform", "src/transform.hpp: transform_to_primitive, transform_from_primitive"]}
{"id": "C36", "title": "Vertex numbering survives parallel grid construction", "statement": "When the vertices found by several workers are merged into one list, every node's vertex numbers refer, in the merged list, to the points they referred to in the worker's own list; points kept from the original lattice come first.", "quantifier": "every number of workers, every distribution of nodes to workers, every merge order", "why_tests_cant": "The distribution of nodes to threads is chosen by the runtime.", "anchors": ["src/vertex_map_set.h: VertexMapSet", "src/vertex_index_map.h: VertexIndexMap", "src/vertex_map_knit.h: combine, parallel_reduce, reduce", "src/trellis_poly_parallel.tpp: construct, part_one"]}
{"id": "C37", "title": "Extra triangulation points are numbered correctly by concurrent workers", "statement": "When the triangulation of a boundary node adds a point, this point appears in the grid's vertex list at the number recorded for it, for every interleaving of the workers.", "quantifier": "every interleaving of any number of workers", "why_tests_cant": "The failing interleaving is rare and its effect is a silently wrong interpolation.", "anchors": ["src/trellis_poly_parallel.tpp: part_two"]}
{"id": "C38", "title": "Removing dangling faces ends in a clean polyhedron", "statement": "Removing dangling faces and vertices from a face list ends; afterwards each face has at least three vertices and every vertex that remains in use belongs to at least three faces; a list that already satisfies this is unchanged.", "quantifier": "every list of faces over valid vertex numbers", "why_tests_cant": "Cascading removals of any depth.", "anchors": ["src/geometry.hpp: remove_dangling_faces"]}
{"id": "C39", "title": "Re-indexing after removing points preserves geometry", "statement": "Removing duplicate, faceless or marked points from a polyhedron and renumbering its faces leaves each face's list of positions unchanged (apart from the removed ones), and all renumbered indices are valid.", "quantifier": "every point list and face list", "why_tests_cant": "Unbounded inputs with arbitrary repetition patterns.", "anchors": ["src/geometry.hpp: remove_duplicate_points_and_update_face_indexing, remove_points_and_update_face_indexing, remove_faceless_points, polygon_face_vertex_purge"]}
{"id": "C40", "title": "Face lists are compared up to rotation and order", "statement": "Two face lists compare equal exactly when the faces of one can be paired with the faces of the other so that paired faces are cyclic rotations of each other.", "quantifier": "all pairs of face lists", "why_tests_cant": "All rotations, orders and multiplicities.", "anchors": ["src/polyhedron_faces.cpp: Faces::operator!=", "src/polyhedron_faces.hpp: operator=="]}
{"id": "C41", "title": "Listing polyhedron edges is memory safe", "statement": "Listing the edges of any face list either returns each edge once or raises an error, without writing outside its buffers.", "quantifier": "every face list", "why_tests_cant": "Needs face lists that are not closed polyhedra.", "anchors": ["src/polyhedron_faces.cpp: edges"]}
{"id": "C42", "title": "Cubic node interpolation weights", "statement": "For a point inside a cuboid node the returned vertex weights are non-negative, sum to one and reproduce exactly every function that is affine along each axis; for a point outside the node the call reports failure.", "quantifier": "every cuboid, every point, every function that is affine along each axis", "why_tests_cant": "Continuum of points and functions.", "anchors": ["src/trellis_node.hpp: CubeNode::indices_weights"]}
{"id": "C43", "title": "Tetrahedral interpolation weights", "statement": "For a point inside a non-degenerate tetrahedron the returned weights are non-negative, sum to one and reproduce the point (and so every affine function); a point outside is rejected.", "quantifier": "every non-degenerate tetrahedron and every point", "why_tests_cant": "Continuum of tetrahedra and points.", "anchors": ["src/trellis_node.hpp: PolyNode::tetrahedra_contains, indices_weights", "src/nest.hpp: NestLeaf::weights, contains"]}
{"id": "C44", "title": "Trellis node numbering is a bijection and point location is correct", "statement": "Node subscripts and node numbers of a trellis convert into each other without loss, and the bin found for a coordinate between the first and last knot is the one whose knots bracket it.", "quantifier": "every trellis size, every subscript, every coordinate", "why_tests_cant": "Unbounded trellis sizes; boundary coordinates.", "anchors": ["src/trellis_poly.hpp: sub2idx, idx2sub, find_bin, on_boundary, subscript_ok"]}
{"id": "C45", "title": "Looking up the node of any point is memory safe", "statement": "Looking up the node of any point, inside or outside the trellis, returns a node or raises an error without reading outside the node list.", "quantifier": "every trellis and every point", "why_tests_cant": "Needs points on or beyond the boundary with null neighbours.", "anchors": ["src/trellis_poly.hpp: node_subscript, node_neighbours"]}
{"id": "C46", "title": "Parallel interpolation is independent of the schedule", "statement": "Interpolating at many points with any number of threads gives, for every interleaving, the same output as one thread, and raises an error exactly when some point could not be located.", "quantifier": "every number of threads and every interleaving", "why_tests_cant": "Interleavings cannot be enumerated.", "anchors": ["src/trellis_poly.hpp: interpolate_at", "src/nest.hpp: interpolate_at"]}
{"id": "C47", "title": "Worker exceptions are never lost", "statement": "If at least one worker throws, the collected exception is re-thrown after the parallel region, and reports every worker failure; if none throws nothing is thrown.", "quantifier": "every number of workers, every interleaving, every exception type", "why_tests_cant": "Interleavings and foreign exception types.", "anchors": ["src/thread_exception.h: ThreadException"]}
{"id": "C48", "title": "Interpolation settings survive saving and loading", "statement": "Saving interpolation data to a file and loading it gives data that compares equal and uses the same cost functions and weights.", "quantifier": "every valid setting", "why_tests_cant": "Settings combine; tests save only default settings.", "anchors": ["src/interpolator.hpp: set_cost_info, to_hdf, from_hdf, operator!="]}
{"id": "C49", "title": "Vectors and pseudovectors rotate alike under proper rotations", "statement": "Under a proper rotation of the crystal, data declared as real-space vectors and data declared as pseudovectors are transformed identically, and scalar products of real-space with reciprocal-space vectors are preserved.", "quantifier": "all point groups, all proper rotations, all vectors", "why_tests_cant": "Involutions hide the difference, and most tests use them.", "anchors": ["src/interpolator_real.tpp", "src/interpolator_recip.tpp", "src/interpolator_axial.tpp"]}
{"id": "C50", "title": "Phonon-like matrices are rotated for every number of atoms", "statement": "Matrix data for N atoms (N by N blocks of 3x3) that transforms like phonon eigenvectors is accepted and every block is rotated, for each N.", "quantifier": "every number of atoms", "why_tests_cant": "Fails by a divisibility condition on N.", "anchors": ["src/interpolator_gamma.tpp: rip_gamma_*", "src/interpolator.hpp: count_scalars_vectors_matrices"]}
{"id": "C51", "title": "Serial and parallel nested interpolation agree", "statement": "Interpolating on a nested tetrahedral grid without threads gives the same arrays as with threads, for every shape of the stored values and vectors, without writing outside the results.", "quantifier": "every shape of stored values and vectors", "why_tests_cant": "Needs vectors with a different shape from values.", "anchors": ["src/nest.hpp: Nest::interpolate_at"]}
{"id": "C52", "title": "Relative neighbour tables are complete", "statement": "The relative neighbour table for extent N holds each non-zero offset with components in [-N,N] exactly once, and the ordered-by-distance variant is a rearrangement of the same table.", "quantifier": "every extent", "why_tests_cant": "Unbounded extent.", "anchors": ["src/neighbours.cpp: make_relative_neighbour_indices, make_relative_neighbour_indices_prime"]}
{"id": "C53", "title": "Moving a point into the Brillouin zone subtracts a lattice vector", "statement": "When moving points into the first Brillouin zone succeeds, each result plus the reported integer lattice vector is the original point and satisfies all zone-boundary inequalities; otherwise an error is raised.", "quantifier": "every set of zone planes, every point, every number of threads", "why_tests_cant": "Continuum of points; iteration count depends on the point.", "anchors": ["src/bz_move.cpp: moveinto"]}
{"id": "C54", "title": "Moving a point into the irreducible zone reports the right rotation", "statement": "When moving points into the irreducible zone succeeds, the original point equals the transposed reported rotation applied to the result plus the reported lattice vector, and the two reported rotation indices name mutually inverse operations.", "quantifier": "every point group, every point", "why_tests_cant": "All groups, all stored orders, all points.", "anchors": ["src/bz_move.cpp: ir_moveinto"]}
{"id": "C55", "title": "Phonon phase-table keys are injective", "statement": "Different (atom, operation) pairs never share an entry of the phase table, an out-of-range pair raises an error, and the finished table gives for every pair the equivalent atom and its phase vector.", "quantifier": "every number of atoms and operations", "why_tests_cant": "Unbounded sizes.", "anchors": ["src/phonon.hpp: GammaTable::calc_key"]}
{"id": "C56", "title": "Node container keeps nodes in insertion order", "statement": "For every history of adding and replacing nodes, the node at position i has the kind and content last stored there, and storing at one position never changes another.", "quantifier": "every sequence of insertions and replacements", "why_tests_cant": "Histories mixing node kinds are unbounded.", "anchors": ["src/trellis_node.hpp: NodeContainer"]}
{"id": "C57", "title": "Integer helper functions", "statement": "The greatest-common-divisor helper returns the gcd for all non-negative inputs and the binomial helper returns the binomial coefficient or reports overflow.", "quantifier": "all inputs", "why_tests_cant": "Large inputs overflow silently.", "anchors": ["src/utilities.tpp: gcd, binomial_coefficient"]}
{"id": "C58", "title": "Index-list utilities", "statement": "Inverting a list of lists lists under each value exactly the positions that hold it; uniqueness removal keeps each value once; the same-cyclic-order test holds exactly for rotations.", "quantifier": "every list of lists", "why_tests_cant": "Unbounded inputs.", "anchors": ["src/utilities.hpp: invert_lists, unique, is_positive_permutation, add_if_missing, unordered_list_in_lists"]}
{"id": "C59", "title": "Convex hull planes bound the points", "statement": "Each plane returned for the convex hull of a set of points passes through three of them that are not on a line, has no point in front and some point behind, and each such plane is returned exactly once.", "quantifier": "every list of at least four points with fewer than 2^32 choices of three", "why_tests_cant": "All configurations of points.", "anchors": ["src/geometry.hpp: find_convex_hull_planes, pseudo_orient3d"]}
{"id": "C60", "title": "Reading custom symmetry text ends", "statement": "Adding point operations from any text ends.", "quantifier": "every input text", "why_tests_cant": "A non-terminating input is found only by reading or by proof.", "anchors": ["src/pointsymmetry.cpp: PointSymmetry::add(string)"]}
{"id": "C61", "title": "Sorted tables compare equal", "statement": "Two tables of permutations obtained by sorting the same data compare equal, whatever the number and scheduling of the threads that sorted them.", "quantifier": "every data set, every number of threads and interleaving", "why_tests_cant": "The comparison looks at the stored representation, which depends on the order in which threads finish.", "anchors": ["src/permutation_table.hpp: operator!=", "src/interpolatordual.hpp: sort"]}
{"id": "C62", "title": "Sorting before any data is stored is harmless", "statement": "Sorting a grid in which no data has been stored yet is an error or has no effect; it never has undefined behaviour.", "quantifier": "every grid and every set of registered pairs", "why_tests_cant": "The failing division happens in a state that tests of sorting never create.", "anchors": ["src/interpolatordual.hpp: sort", "wrap/_common_grid.hpp: sort"]}
{"id": "C63", "title": "Permuting point operations", "statement": "Permuting the stored point operations by a permutation p puts the old operation p(i) at place i; any other index list raises an error.", "quantifier": "every list of operations and every index list", "why_tests_cant": "The in-place cycle swapping has a bookkeeping array whose consistency depends on the whole cycle structure.", "anchors": ["src/pointsymmetry.cpp: permute"]}
{"id": "C64", "title": "Adding space inversion to a point group", "statement": "Adding space inversion to a point group that lacks it gives the operations of the group and their inverted copies, and nothing else.", "quantifier": "every finite point group in every stored order", "why_tests_cant": "The result depends on the order in which the operations are stored, of which tests see one.", "anchors": ["src/pointsymmetry.cpp: add_space_inversion, generators, generate"]}
{"id": "C65", "title": "Order of a motion", "statement": "The order reported for a motion whose order is at most ten is the smallest power that is the identity modulo lattice translations.", "quantifier": "every motion of order at most ten", "why_tests_cant": "The loop multiplies motions with reduced translations and has a built-in cut-off.", "anchors": ["src/symmetry.cpp: order"]}
{"id": "C66", "title": "Extracting rows", "statement": "Extracting rows by a list of indices gives a new array whose row k is the row of the array named by index k; an index that is not a row raises an error.", "quantifier": "every array, including views, and every index list", "why_tests_cant": "Index lists and shapes are unbounded.", "anchors": ["src/array2.tpp: extract"]}
{"id": "C67", "title": "Element-wise results", "statement": "Rounding, flooring, ceiling or negating an array, including a view onto part of another array, gives the array of the results at the same subscripts without touching memory outside of it.", "quantifier": "every array and view", "why_tests_cant": "The result is allocated with the strides of the operand, which only matters for views with gaps.", "anchors": ["src/array2.tpp: round, floor, ceil, operator-"]}
{"id": "C68", "title": "Node lookup finds a usable node holding the point", "statement": "For a point inside the trellis that lies in some usable node, looking up its node gives a usable node which contains the point.", "quantifier": "every trellis and every point touching a usable node", "why_tests_cant": "Only points exactly on node faces next to unusable nodes take the neighbour search.", "anchors": ["src/trellis_poly.hpp: node_subscript, node_neighbours"]}
{"id": "C69", "title": "Node container file round trip", "statement": "Writing a node container to a file and reading it back gives a container with the same node kinds and contents at every position.", "quantifier": "every container", "why_tests_cant": "Containers of every mixture of kinds would have to be tried.", "anchors": ["src/trellis_node.hpp: NodeContainer to_hdf, from_hdf"]}
{"id": "C70", "title": "Searching nested tetrahedra", "statement": "Searching a nest of tetrahedra for a point gives the weights of a leaf which, with all its ancestors, contains the point, these being positive, summing to one and reproducing the point; a leaf with the point inside is preferred to those with it on their faces; it gives nothing exactly when there is no such leaf.", "quantifier": "every nest of any depth and every point", "why_tests_cant": "Nests have unbounded depth and ties on shared faces need exact coincidences.", "anchors": ["src/nest.hpp: NestNode::indices_weights, NestLeaf::weights"]}
{"id": "C71", "title": "Interpolated results are weighted sums", "statement": "Every element of the interpolated values and vectors is the sum over the located vertices, in their order, of weight times (for vectors) phase factor times the element of the branch matched by the stored permutation.", "quantifier": "every number of points, branches and elements per branch, and every stored permutation", "why_tests_cant": "The index arithmetic over points, branches and elements is unbounded.", "anchors": ["src/interpolator_at.tpp: interpolate_at_mix", "src/interpolatordual.hpp: interpolate_at", "src/trellis_poly.hpp: interpolate_at"]}
{"id": "C72", "title": "Space-group name lookup", "statement": "Looking up the international, full or short symbol of any entry of the space-group table, with the choice of that entry or without a choice, finds an entry with the same space-group number.", "quantifier": "all entries, all their names", "why_tests_cant": "The table has over five hundred entries with overlapping names.", "anchors": ["src/spg_database.cpp: string_to_hall_number and related lookups"]}
{"id": "C73", "title": "Tabulated centring agrees with the symbols", "statement": "For each entry of the space-group table, the tabulated lattice centring is the one named by the letter of its Hall symbol.", "quantifier": "all entries of the table", "why_tests_cant": "The table has over five hundred entries, and tests use a handful.", "anchors": ["src/spg_database.cpp: ALL_SPACEGROUPS", "src/lattice_dual.hpp: use of the centring for primitive cells"]}
{"id": "C74", "title": "Phonon-like vectors are rotated, permuted and phased", "statement": "For vector data of N atoms that transforms like phonon eigenvectors, the vector of atom k becomes, at the place of the atom to which the inverse operation moves k, the rotated vector times its phase factor; all other elements stay as they are, whatever the temporary buffer held before.", "quantifier": "every number of points, branches and atoms; every permutation of the atoms and all phases", "why_tests_cant": "The buffer is reused between branches and points and indexed by a table.", "anchors": ["src/interpolator_gamma.tpp: rip_gamma_complex"]}
{"id": "C75", "title": "Rotation acts on every vector and matrix of every branch", "statement": "Rotating results in place changes each 3-vector and each 3x3 matrix of every branch by the operation chosen for its point, in the way its kind demands, and leaves scalars and left-over elements alone.", "quantifier": "every number of points, branches, scalars, vectors and matrices, and every operation", "why_tests_cant": "Index arithmetic over an unbounded number of layouts.", "anchors": ["src/interpolator_real.tpp", "src/interpolator_recip.tpp", "src/interpolator_axial.tpp"]}
{"id": "C76", "title": "Permutation stored from an assignment", "statement": "From the permutation stored for the neighbouring point and a one-to-one assignment between the two points, the permutation stored for the centre is a permutation again, and gives the same global label to the objects that the assignment pairs.", "quantifier": "every number of objects, all permutations and assignments", "why_tests_cant": "n! permutations times n! assignments.", "anchors": ["src/permutation.hpp: munkres_permutation, jv_permutation, sm_permutation"]}
{"id": "C77", "title": "The Jonker-Volgenant solver stays in its arrays for every matrix of floating point numbers", "statement": "For every square matrix of floating point numbers, those that are not numbers included, the Jonker-Volgenant solver reads and writes only inside its arrays.", "quantifier": "every size and every matrix of floating point numbers", "why_tests_cant": "The comparisons are false for not-a-number, and which indices stay unset depends on the pattern of the matrix.", "anchors": ["src/lapjv.hpp: find_umins_plain, lapjv"]}
{"id": "C78", "title": "Moving a point into the irreducible wedge", "statement": "When moving points into the irreducible wedge succeeds, each result is in the wedge and the original point equals the transposed reported rotation applied to it.", "quantifier": "every list of operations, every wedge, every point and every previous content of the outputs", "why_tests_cant": "The previous content of the outputs matters only for points without an image in the wedge.", "anchors": ["src/bz_move.cpp: ir_moveinto_wedge"]}
{"id": "C79", "title": "Points of the zone of a centred lattice can be moved without the primitive option", "statement": "For a zone made without the primitive option from a centred lattice, a point which is in the zone is accepted by the function moving points into the zone.", "quantifier": "every centring and every point", "why_tests_cant": "Continuum of points; the rounding in the primitive cell fails only near some corners.", "anchors": ["src/bz_move.cpp: moveinto, part_moveinto_prim"]}
{"id": "C80", "title": "A vertex set takes any number of extra points", "statement": "A vertex set made from a non-empty list of lattice points accepts every sequence of further points, each within the allocated rows, and returns for each a number which leads to it.", "quantifier": "every list of lattice points, every sequence of points", "why_tests_cant": "An access one row beyond a heap buffer usually goes unnoticed.", "anchors": ["src/vertex_map_set.h: insert, construct_appended, add"]}
{"id": "C81", "title": "Generated operations have the centring of the Hall symbol", "statement": "For each of the tabulated Hall symbols, the pure translations among the generated operations are exactly the centring vectors of its lattice letter, and the centring found from the operations is this letter.", "quantifier": "all 530 tabulated Hall symbols, all translations in twelfths", "why_tests_cant": "Tests look at few groups and never at their pure translations.", "anchors": ["src/symmetry.cpp: getcentring 198-215", "src/hall_symbol.cpp: get_generators 113-159", "src/spg_database.cpp: table 79-609"]}
{"id": "C82", "title": "Accepted axis specifications are decoded as they are meant", "statement": "The check of a Hall symbol accepts exactly the rotation orders 1, 2, 3, 4, 6 with either sign, one cell axis or up to three primes, and translation characters used once; repeated primes in an accepted symbol denote the same axis as the double prime or the asterisk.", "quantifier": "all Hall symbols", "why_tests_cant": "No test uses repeated primes; the replacement happens on a copy and is lost.", "anchors": ["src/hall_symbol.cpp: validate 105-111, 180-210", "src/hall_symbol.hpp: implicit_axis 124-157"]}
{"id": "C83", "title": "Decoded rotations have their order, axis and sense", "statement": "The matrix decoded for a rotation order and axis is, up to the inversion for negative orders, a proper rotation of exactly this order about this axis, turning in the right-handed sense.", "quantifier": "all rotation orders, axes and preceding axes of the notation", "why_tests_cant": "A wrong sense gives the inverse rotation, which generates the same point group and goes unnoticed.", "anchors": ["src/hall_symbol.cpp: inner_getr 215-259"]}
{"id": "C84", "title": "Decoded translations are the sums of their parts", "statement": "The translation decoded for a symbol is, modulo lattice vectors, the sum of the vectors of its letters and of k/n times the axis for each digit k and order n.", "quantifier": "all translation parts, rotation orders and axes", "why_tests_cant": "Unbounded texts; tests use the tabulated symbols only.", "anchors": ["src/hall_symbol.cpp: inner_gett 268-307"]}
{"id": "C85", "title": "The unique rotations are the distinct ones, in order of first appearance", "statement": "Given a non-empty list of rotations, the unique rotations are its distinct members in the order of their first appearance, followed, with time reversal, by their negatives that are not yet there; nothing outside the list is read.", "quantifier": "every list of integer matrices, with and without time reversal", "why_tests_cant": "The flag that ends the search is carried from one rotation to the next; an error shows only for particular orders.", "anchors": ["src/pointgroup.cpp: get_unique_rotations 605-641"]}
{"id": "C86", "title": "The point group of a tabulated space group is its set of rotations", "statement": "For each tabulated space group the point group symmetry lists every rotation of a generated motion exactly once and nothing else, is a group, and has the order of the tabulated point group; with time reversal it is this group together with the negatives of its members.", "quantifier": "all 530 tabulated groups, any order that the sorting may leave", "why_tests_cant": "Tests check a handful of groups.", "anchors": ["src/spg_database.cpp: get_pointgroup_symmetry 671-675", "src/pointgroup.cpp: get_unique_rotations 605-641", "src/pointsymmetry.hpp: constructor 48"]}
{"id": "C87", "title": "Adding space inversion to a space group gives a group", "statement": "Adding space inversion to a group of motions that lacks it gives the smallest group with all its motions and the inversion at the origin; otherwise the group is unchanged.", "quantifier": "every finite group of motions", "why_tests_cant": "Only centrosymmetric or symmorphic groups appear in tests; for screw axes the inverted copies do not form a group.", "anchors": ["src/symmetry.cpp: has_space_inversion 177-181, add_space_inversion 182-191"]}
{"id": "C88", "title": "Every point group operation has a space group operation", "statement": "For each tabulated group, with or without time reversal, the construction of the table of phases finds for each operation of the point group a motion of the space group with this rotation, and does not throw.", "quantifier": "all 530 tabulated groups, with and without time reversal, any order that the sorting may leave", "why_tests_cant": "Tests construct the table for few groups.", "anchors": ["src/phonon.hpp: construct 112-137", "src/symmetry.cpp: find_matrix_index 193-196"]}
{"id": "C89", "title": "The hull of points in convex position has them all as vertices, and the right faces", "statement": "If no point is given twice, each is a strict maximum of some linear function and they are not in one plane, then the convex hull keeps all points in order and has exactly one face for each bounding plane; the corners of a face are exactly the points in its plane, each once, at least three, and run anticlockwise and strictly convex seen from outside.", "quantifier": "every such list of points with integer coordinates, exact arithmetic", "why_tests_cant": "Tests look at the volumes and counts of a few polyhedra; the angular sort, the test of the area and the removal of corners meet other branches for each order of the points.", "anchors": ["src/polyhedron_faces.hpp: Faces 51-78", "src/geometry.hpp: find_planes_containing_point 727-745, sort_convex_polygon_face 748-834, polygon_faces 861-882, face_has_area 337-365", "src/polyhedron_flex.hpp: Poly 22-29, finish_convex_hull 275-298"]}
{"id": "C90", "title": "The convex hull of any points that are not in one plane is right", "statement": "For any list of at least four points that are not in one plane, repeated points, points on edges and points inside of faces included, the extreme points are vertices of the convex hull, each bounding plane has a face, and faces are convex polygons.", "quantifier": "every list of points with integer coordinates, exact arithmetic", "why_tests_cant": "The points of the cells built in the tests are corners; extra points on faces or edges are rare and depend on the order.", "anchors": ["src/polyhedron_faces.hpp: Faces 51-78", "src/geometry.hpp: sort_convex_polygon_face 748-834, face_has_area 337-365", "src/polyhedron_flex.hpp: finish_convex_hull 275-298"]}
{"id": "C91", "title": "The convex hull of points in one plane is refused", "statement": "The convex hull of points that are all in one plane ends in an exception or an empty polyhedron and never reads outside of an array.", "quantifier": "every list of at least four different coplanar points", "why_tests_cant": "The read of a plane that is not there usually goes unnoticed.", "anchors": ["src/geometry.hpp: find_planes_containing_point 727-745, pseudo_orient3d", "src/subscript.hpp 464-479", "src/polyhedron_faces.hpp: Faces 51-60"]}
{"id": "C92", "title": "Cutting a convex polyhedron by a plane gives what is behind the plane", "statement": "A cut of a convex polyhedron by a plane through three points that are not on a line ends without exception or undefined behaviour. If a point inside of the polyhedron is behind the plane, the result is again a convex polyhedron (different points, each on a face; strictly convex anticlockwise faces whose corners are the points in their plane; closed) and contains exactly the points of the old one that are not in front of the plane. Otherwise the result has no faces.", "quantifier": "every convex polyhedron and every plane, planes through corners, edges and faces included, exact arithmetic", "why_tests_cant": "Which edges are cut, where points are inserted and which faces disappear differs for each position of the plane; the tests cut few polyhedra and look at volumes.", "anchors": ["src/polyhedron_faces.hpp: one_cut 410-501, none_beyond 379-403, face_index 348-371", "src/geometry.hpp: keep_to_cut_edge_list 469-494, valid_edge_plane_intersections 610-651, sort_convex_polygon_face 748-834, remove_middle_colinear_points_from_faces 947-976, face_not_in_faces 1097-1112", "src/utilities.hpp: add_between_if_missing 640-655"]}
{"id": "C93", "title": "Cutting a convex polyhedron by several planes gives what is behind all of them", "statement": "A cut of a convex polyhedron by any number of planes ends without exception or undefined behaviour. If a point inside is behind all planes, the result is a convex polyhedron that contains exactly the points which are not in front of a plane. Otherwise it has no faces.", "quantifier": "every convex polyhedron and every list of planes, exact arithmetic", "why_tests_cant": "The planes are used one after the other on polyhedra that no test constructs.", "anchors": ["src/polyhedron_faces.hpp: cut 503-519, one_cut 410-501"]}
{"id": "C94", "title": "The intersection of convex polyhedra", "statement": "The intersection of two convex polyhedra is the convex polyhedron of the points in both if their insides meet, and has no faces otherwise.", "quantifier": "all pairs of convex polyhedra, those which share faces, edges or corners included, exact arithmetic", "why_tests_cant": "The relative position of two polyhedra has no finite set of cases.", "anchors": ["src/polyhedron_flex.hpp: intersection 212-215", "src/polyhedron_faces.cpp: planes 93-102", "src/polyhedron_faces.hpp: cut 503-519"]}
{"id": "C95", "title": "A polyhedron contains the points that are not in front of a face", "statement": "Asked for a list of points, a convex polyhedron answers for each whether it is in front of no face; the question has defined behaviour for the results of all cuts and intersections.", "quantifier": "every convex polyhedron, every result of an intersection and every list of points, exact arithmetic", "why_tests_cant": "Tests ask non-empty polyhedra; the smallest of no numbers is usually some value in memory.", "anchors": ["src/polyhedron_faces.hpp: contains 313-336", "src/geometry.hpp: point_inside_all_planes 411-418"]}
{"id": "C96", "title": "The volume of a convex polyhedron", "statement": "The volume of a convex polyhedron with faces is positive and the sum of the volumes of the tetrahedra that lead from any one of its points to the triangles of its faces.", "quantifier": "every convex polyhedron and every point in it, wherever the origin is, exact arithmetic", "why_tests_cant": "The sum over the triangles has terms of both signs that cancel only for closed polyhedra; tests compute few volumes.", "anchors": ["src/polyhedron_faces.hpp: volume 253-269"]}
{"id": "C97", "title": "The centroid of a convex polyhedron", "statement": "The centroid of a convex polyhedron with faces is a point strictly inside. It is the mean, weighted with the volumes, of the centres of the tetrahedra that lead from any one of its points to the triangles of its faces.", "quantifier": "every convex polyhedron and every point in it, exact arithmetic", "why_tests_cant": "The formula sums squares with signs; that it is independent of the origin is not tested.", "anchors": ["src/polyhedron_faces.hpp: centroid 215-234"]}
{"id": "C98", "title": "The sphere around a polyhedron", "statement": "The sphere around the centroid with the circumsphere radius contains all points of a convex polyhedron and goes through one of its corners.", "quantifier": "every convex polyhedron, exact arithmetic, the square of the radius", "why_tests_cant": "The trellis decides with this radius whether two polyhedra can meet; the tests do not measure it.", "anchors": ["src/polyhedron_faces.hpp: circumsphere_radius 289-293"]}
{"id": "C99", "title": "Mirrored, translated and centred polyhedra", "statement": "Mirror, translate and centre of a convex polyhedron give convex polyhedra with outward faces that contain the moved points of the old one. A translation keeps the volume and moves the centroid; the centroid of a centred polyhedron is the origin.", "quantifier": "every convex polyhedron and every translation, exact arithmetic", "why_tests_cant": "Without the reversal of all faces the mirrored polyhedron contains nothing; tests look at its volume.", "anchors": ["src/polyhedron_flex.hpp: mirror, centre, translate 146-148", "src/polyhedron_faces.hpp: mirror 296"]}
{"id": "C100", "title": "Dividing a polyhedron by a plane", "statement": "Dividing a convex polyhedron by a plane gives the convex polyhedron of its points that are not in front of the plane.", "quantifier": "every convex polyhedron and every plane, exact arithmetic", "why_tests_cant": "Only polyhedra with the centroid at the origin would be divided rightly, and such polyhedra are the usual examples.", "anchors": ["src/polyhedron_faces.hpp: divide 399-406", "src/polyhedron_flex.hpp: divide 217-220"]}
{"id": "C101", "title": "Whether two polyhedra intersect", "statement": "Asked whether two convex polyhedra with faces intersect, the answer is yes exactly if a point is strictly inside both; the question never throws.", "quantifier": "all pairs of convex polyhedra with faces, exact arithmetic, the volume compared with zero", "why_tests_cant": "Polyhedra that share a face, an edge or a corner do not intersect, and there is no end of such pairs.", "anchors": ["src/polyhedron_flex.hpp: intersects 199-211"]}
{"id": "C102", "title": "The volume is that of a set of points", "statement": "Two convex polyhedra with the same points have the same volume, whatever the numbering of their corners, the order of their faces and where each face starts.", "quantifier": "all pairs of convex polyhedra, exact arithmetic", "why_tests_cant": "The zone construction compares volumes of polyhedra that come from different cuts; tests do not vary the order of corners and faces.", "anchors": ["src/polyhedron_faces.hpp: volume 253-269", "src/bz.hpp: construct 142-160"]}
{"id": "C103", "title": "A search for the first Brillouin zone", "statement": "A search with a given extent gives the convex polyhedron of the points in the bounding box that are not nearer to a lattice point with coefficients up to the extent than to the origin, whatever order lattice points of equal length are sorted into. From some extent on this is exactly the first Brillouin zone, while for a small extent the bounding box can cut off part of the zone.", "quantifier": "every basis of three independent vectors, every extent from 1 on, exact arithmetic", "why_tests_cant": "The zones of the tests are those of a few dozen lattices.", "anchors": ["src/bz.cpp: voro_search 197-231", "src/geometry.hpp: plane_points_from_normal 185-207", "src/polyhedron_flex.hpp: bounding_box 305-328"]}
{"id": "C104", "title": "The construction of the first Brillouin zone ends", "statement": "The loop that widens the search until the volume no longer changes ends after finitely many searches. Its result is convex, and the search before it found a polyhedron of the same volume.", "quantifier": "every basis of three independent vectors, every first extent from 1 on, exact arithmetic", "why_tests_cant": "That a loop ends for all lattices can not be tested.", "anchors": ["src/bz.hpp: construct 142-160"]}
{"id": "C105", "title": "The constructed polyhedron is the first Brillouin zone", "statement": "The polyhedron constructed for a lattice is its first Brillouin zone: it contains exactly the points that are not nearer to another lattice point than to the origin.", "quantifier": "every basis of three independent vectors, the default first extent, exact arithmetic", "why_tests_cant": "The bases for which the volume repeats too early are strongly skewed and not among the examples of the tests.", "anchors": ["src/bz.hpp: construct 142-160", "src/bz.cpp: voro_search 197-231"]}
{"id": "C106", "title": "The volumes on the two sides of a plane", "statement": "The volumes of the two polyhedra that a plane cuts from a convex polyhedron, once as given and once with the opposite normal, sum to the volume of the whole.", "quantifier": "every convex polyhedron and every plane, planes that miss it or touch it included, exact arithmetic", "why_tests_cant": "The wedge is searched by comparing the volume after a cut with half of the volume before; tests cut a few polyhedra by a few planes.", "anchors": ["src/polyhedron_faces.hpp: one_cut 408-501, volume 253-269", "src/bz_wedge.cpp: wedge_triclinic 456-485"]}
{"id": "C107", "title": "Volumes decide whether parts cover a polyhedron", "statement": "Convex parts of a convex polyhedron of which no two overlap have at most the volume of the whole together, and exactly this volume if and only if every point of the whole is in a part.", "quantifier": "every convex polyhedron and every list of convex parts, exact arithmetic", "why_tests_cant": "The irreducible zone is accepted because of its volume; that this makes its images cover the zone is a statement about all points.", "anchors": ["src/polyhedron_faces.hpp: volume 253-269", "src/bz.cpp: check_ir_polyhedron 69-94"]}
{"id": "C108", "title": "Symmetry operations on a polyhedron", "statement": "Applying an operation of a point group to a convex polyhedron gives a convex polyhedron with as many faces whose points (and inner points) are exactly the images of the points (inner points) of the first, and whose volume is that of the first times the absolute value of the determinant.", "quantifier": "every basis of three independent vectors, every integer matrix with a determinant that is not zero (inversions and reflections included), every convex polyhedron, exact arithmetic", "why_tests_cant": "The flip of faces by improper operations depends on the signs of computed normals; tests look at a few zones.", "anchors": ["src/polyhedron_flex.hpp: apply 162-187", "src/geometry.hpp: three_point_normal 249-264, sort_convex_polygon_face 748-834"]}
{"id": "C109", "title": "The check of the irreducible zone", "statement": "The check of a convex part of the first zone holds if and only if every point of the first zone is the image of a point of the part under an operation of the point group and images under different operations have no inner point in common.", "quantifier": "every basis, every finite point group that keeps the first zone, every convex part of the zone, exact arithmetic", "why_tests_cant": "A wrong part is accepted or a right one refused for a particular group only, and tests call the check only through the search.", "anchors": ["src/bz.cpp: check_ir_polyhedron 69-94", "src/pointsymmetry.cpp: higher 385-393", "src/polyhedron_flex.hpp: apply 162-187, intersects 199-211"]}
{"id": "C110", "title": "The irreducible zone of triclinic lattices", "statement": "For a lattice whose point group has no operation other than the identity and the inversion the construction succeeds without the brute force search. Its irreducible zone is a convex part of the first zone, every point of which is the image of a point of the part, and different images do not overlap; with time reversal the inversion counts as an operation.", "quantifier": "every basis of three independent vectors, with and without inversion, with and without time reversal, every first extent from 1 on, exact arithmetic", "why_tests_cant": "There are triclinic lattices of every shape; the fallback to other normals is never reached, which no test can show.", "anchors": ["src/bz_wedge.cpp: wedge_triclinic 456-485", "src/bz.hpp: construct 142-196", "src/lattice_dual.hpp: is_triclinic 659", "src/pointsymmetry.cpp: add_space_inversion 248-255"]}
{"id": "C111", "title": "The points of the faces are half lattice vectors", "statement": "For the polyhedron of the first zone the point computed for a face is half of a lattice vector that is not zero, and the face lies in the plane of the points that are as near to this vector as to the origin.", "quantifier": "every basis of three independent vectors and every convex polyhedron that has the points of the first zone, exact arithmetic", "why_tests_cant": "The source says that these points must be the centres of the faces, which are averages of corners; why an average of corners is half a lattice vector is a geometric fact about every lattice.", "anchors": ["src/polyhedron_faces.hpp: face_points 173-187", "src/bz_move.cpp: moveinto 139"]}
{"id": "C112", "title": "Moving points with the faces of the first zone", "statement": "When moveinto uses the planes, normals and vectors of the polyhedron of the first zone, its only outcomes are an exception and a result in which every point is in the first zone of the lattice and differs from the given point by the reported lattice vector.", "quantifier": "every right handed basis, every convex polyhedron that has the points of the first zone, every list of points, primitive lattices, exact arithmetic", "why_tests_cant": "The test of the planes and the first zone agree at every point, those on faces included; tests take random points of a few lattices.", "anchors": ["src/bz_move.cpp: part_moveinto_prim 15-50, moveinto 103-163", "src/polyhedron_faces.hpp: face_points 173-187, face_normals 188-200, planes 152-170"]}
{"id": "C113", "title": "Moving into the first zone succeeds", "statement": "moveinto brings every point into the first zone, without an exception.", "quantifier": "every right handed basis, every list of points, primitive lattices, exact arithmetic", "why_tests_cant": "The points that fail are on planes of faces, which random points never are, but grids and paths along the boundary of the zone are.", "anchors": ["src/bz_move.cpp: part_moveinto_prim 15-50, moveinto 103-163"]}
{"id": "C114", "title": "Which irreducible zone the search accepts", "statement": "Whatever normals the attempts of the brute force search come up with, when the construction succeeds its polyhedron is a convex part of the first zone, every point of the zone is the image of a point of the part under an operation, images under different operations do not overlap, the normals that are stored delimit the part, and no mirroring is needed. With an inversion among the operations the search either succeeds or throws.", "quantifier": "every basis, every finite point group that keeps the first zone, with and without inversion, every list of attempts, exact arithmetic", "why_tests_cant": "Which attempt succeeds and what it leaves behind depends on the special points of the lattice; the tests compare volumes for a list of space groups.", "anchors": ["src/bz_wedge.cpp: wedge_brute_force 360-453", "src/bz.hpp: construct 158-192, check_if_mirroring_needed 217-262", "src/bz.cpp: check_ir_polyhedron 69-94"]}
{"id": "C115", "title": "The normals of the wedge", "statement": "For a part that planes through the origin cut from the first zone the computed normals delimit the part: a point of the zone is in the part exactly if it is on the positive side of all of them. None of them can be left out. If nothing was cut off there is an exception.", "quantifier": "every convex zone and every convex part of it that is cut off by planes through the origin, exact arithmetic", "why_tests_cant": "A normal that is missing or superfluous shows for points near one edge of the wedge of a particular group.", "anchors": ["src/bz.cpp: get_ir_polyhedron_wedge_normals 22-56", "src/bz.hpp: set_ir_wedge_normals 290-302"]}
{"id": "C116", "title": "The search takes right candidates", "statement": "If an attempt comes up with normals that delimit an irreducible part the search succeeds with this part, whatever failed before. If the candidate has to be divided once more and the plane of a face normal does so rightly, the search succeeds, too.", "quantifier": "every basis, every finite point group that keeps the first zone, every list of attempts, exact arithmetic", "why_tests_cant": "The failing case needs two face normals that both leave the right volume, of which the first leaves overlapping images.", "anchors": ["src/bz_wedge.cpp: wedge_brute_force 360-453", "src/bz.hpp: construct 158-192"]}
{"id": "C117", "title": "Operations keep the first zone", "statement": "If all operations of a group of integer matrices keep the lengths of vectors of the lattice, they map the first zone into itself.", "quantifier": "every basis of three independent vectors, every finite group of operations, every polyhedron that has the points of the first zone", "why_tests_cant": "The search for the irreducible zone relies on it for all pairs of lattice and point group.", "anchors": ["src/bz.cpp: check_ir_polyhedron 69-94", "src/polyhedron_flex.hpp: apply 162-187"]}
{"id": "C118", "title": "Putting polyhedra together", "statement": "Putting together two convex polyhedra that have no inner point in common adds their volumes. Faces that both have go, all other faces stay with their corners in order, no other faces appear and no point is there twice.", "quantifier": "every pair of convex polyhedra without common inner points, exact arithmetic", "why_tests_cant": "The faces that match are found from numbers of corners they share after renumbering; a wrong match needs faces with different numbers of corners, of which the tests have none.", "anchors": ["src/polyhedron_flex.hpp: combine 96-143", "src/polyhedron_faces.cpp: combine 105-116", "src/utilities.hpp: is_positive_permutation 788-803", "src/geometry.hpp: remove_duplicate_points_and_update_face_indexing 910-945"]}
{"id": "C119", "title": "Looking up atoms", "statement": "equivalent_to returns the first atom of the given type that is at the given place up to a lattice vector within the tolerance, and tells if there is none. closest_to returns that atom or else the atom of the type for which the sum of the squares of the components of the shortest difference is smallest, and this difference. It does so for every basis and type.", "quantifier": "every list of atoms, every type, every place, every absolute tolerance and every relative tolerance up to one, exact arithmetic", "why_tests_cant": "Places just across a cell boundary, atoms of other types that are closer and types without atoms are not tested.", "anchors": ["src/basis.hpp: closest_to 88-133, equivalent_to 147-175"]}
{"id": "C120", "title": "Moving atoms so that they obey the symmetry", "statement": "snap_to tells truthfully whether afterwards every operation brings every atom to an atom of the same type. It keeps types, leaves atoms alone that obey the operations already, and corrects atoms that are off by little.", "quantifier": "every list of atoms, every list of operations for the first part, groups of operations for the second, every tolerance, exact arithmetic", "why_tests_cant": "The tests take structures with atoms at special positions; atoms in general positions need to be corrected together.", "anchors": ["src/basis.hpp: equivalent_after 185-190, snap_to 191-233"]}
{"id": "C121", "title": "Cosines and sines of the angles of a lattice", "statement": "For angles in degrees, radians or multiples of pi the cosines and sines are those of the angles. If no unit is given, negative angles throw, angles that are all less than pi are taken as radians and others as degrees.", "quantifier": "all angles, every unit, every number of at least two bits of the quotient that remquo returns; real arithmetic", "why_tests_cant": "The reduction to an octant with remquo has eight cases and ties; tests use the usual angles.", "anchors": ["src/lattice_dual.hpp: inter_facial_angles_to_cosines_sines 88-108", "src/math.hpp: cosd, sind, cos_and_sin, cos_and_sin_d"]}
{"id": "C122", "title": "Lengths and angles of the dual lattice", "statement": "dual_lattice_parameters gives the lengths and the cosines and sines of the angles of the dual basis, for every basis that has the given lengths, cosines and sines.", "quantifier": "every basis of independent vectors; real arithmetic", "why_tests_cant": "Tests compare with known lattices, mostly with right angles, where wrong indices do not show.", "anchors": ["src/lattice_dual.hpp: unit_parallelpiped_volume 53-70, dual_lattice_parameters 73-87"]}
{"id": "C123", "title": "Basis vectors from lengths and angles", "statement": "The vectors made from lengths and angles have these lengths and angles, are dual to each other, right handed and with the reciprocal ones in the standard orientation; asking for lengths and angles gives back what was given. Angles that no independent vectors have throw.", "quantifier": "all positive lengths and angles between 0 and 180 degrees, both units of length; real arithmetic", "why_tests_cant": "Triclinic lattices and impossible angles are a continuum of which tests take a few.", "anchors": ["src/lattice_dual.hpp: set_vectors 455-478"]}
{"id": "C124", "title": "Basis vectors from a matrix, and their use", "statement": "For a matrix of basis vectors the others are the dual ones, vectors that are not independent are refused; to_xyz and from_xyz are the linear combination of basis vectors and its inverse; the metric gives scalar products, and the metrics and volumes of dual lattices are inverse up to powers of 2 pi; length and angle return the lengths and angles.", "quantifier": "every matrix, every vector; real arithmetic", "why_tests_cant": "Transposed matrices agree for lattices with right angles, and singular ones are not tested.", "anchors": ["src/lattice_dual.hpp: metric_from_column_vectors 129-139, set_vectors 487-502, set_metrics 503-509, length and angle 579-620, to_xyz 672, from_xyz 686", "src/linear_algebra.hpp: mat_inverse"]}
{"id": "C125", "title": "The standard orientation", "statement": "standard_orientation_matrix is a rotation that turns the first vector to the x axis and the second to the half plane with positive y; vectors that are assembled in the standard orientation from lengths and angles and turned back have these lengths and angles and the directions of the old ones.", "quantifier": "every basis of independent vectors; real arithmetic", "why_tests_cant": "The formula takes the arc tangent of quotients, so signs and zeros of the components matter; tests have vectors along axes.", "anchors": ["src/lattice_dual.hpp: standard_orientation_matrix 17-51, snap_basis_vectors_to_symmetry 411-423"]}
{"id": "C126", "title": "Lattices are made to have their symmetry", "statement": "For a group of operations and a basis that nearly has it, snapping gives a basis with exactly this symmetry and the old directions; a basis that has the symmetry stays as it is.", "quantifier": "every group of integer matrices, every basis, real and reciprocal, every centring; real arithmetic", "why_tests_cant": "Tests use conventional bases; unusual bases and orientations are not tested.", "anchors": ["src/lattice_dual.hpp: snap_to_symmetry 310-385, snap_basis_vectors_to_symmetry 404-453"]}
{"id": "C127", "title": "Arithmetic of arrays", "statement": "The sum, difference, product or quotient of two arrays holds in every place the result for the elements there, a single row or column being repeated; shapes that do not fit throw. The same in place, where the operand must not need the result to grow and, if it shares the storage, must not be read where the result has been written; likewise for a scalar and for one value per column.", "quantifier": "all arrays of any shape, strides and offset, every operator, every element type", "why_tests_cant": "Broadcasting, views of the same storage and operands in either order are combinations that tests do not run through.", "anchors": ["src/array_functions.hpp: ARRAY_ARRAY_OP 40-53, ARRAY_SCALAR_OP 76-89, SCALAR_ARRAY_OP 92-103, ARRAY_STDA_OP 107-126", "src/array2.tpp: SCALAR_INPLACE_OP 1261-1270, broadcast_shape_check 1318-1331, ARRAY_INPLACE_OP 1333-1345"]}
{"id": "C128", "title": "Approximate equality", "statement": "Two numbers are approximately equal when their difference is at most the absolute tolerance plus the relative tolerance times the absolute value of their sum, or is smaller than the smallest normal number; integers must be equal. The tolerances are those of the type, or given ones that are larger, and the first floating point type prevails. This is reflexive, symmetric and convex, and arrays are compared element by element.", "quantifier": "all rational numbers, every pair of types, all tolerances; exact arithmetic", "why_tests_cant": "That the relation is not transitive, and that types disagree, shows only for numbers within a few units of the tolerance.", "anchors": ["src/approx_float.hpp: tols 78-100, _scalar 148-189, scalar 203-207, _array 221-244, vector 297-301, equal 365-369"]}
{"id": "C129", "title": "Comparisons with tolerance", "statement": "The comparison operators mean what their names say, with approximate equality for equality; a negated comparison is the negation, of scalars and of vectors; less-than is a strict order and exactly one of less, equal and greater holds. A comparison holds for a whole array if it does for all its elements.", "quantifier": "all rational numbers, every pair of types, all strides and arrays; exact arithmetic", "why_tests_cant": "The operators differ only within the tolerance, where tests seldom look.", "anchors": ["src/comparisons.hpp: Comparer 61-137", "src/array2.tpp: all 664-672, any 673-676"]}
{"id": "C130", "title": "Vectors in the units of a lattice", "statement": "The orthonormal coordinates of lattice vectors are the linear combinations of the basis vectors; star gives the same vectors in the units of the dual basis, and twice the old ones; scalar products, lengths, cross products, sums and differences are those of the vectors themselves, in the same or (scalar products) in dual units, for bases of either hand, with a single vector repeated; vectors of different lattices are refused by the scalar product and by cat, indices beyond the end give an exception or no vector.", "quantifier": "every pair of dual bases, all arrays of vectors; real arithmetic", "why_tests_cant": "Errors by powers of 2 pi or of the volume, and mixed units, do not show in the tests, which have no call of the function star and no left handed bases.", "anchors": ["src/array_lvec_methods.tpp: xyz 40-51, star 53-66, cross 68-82, dot 84-91", "src/array_lvec.hpp: same_lattice, star_lattice 121-124, norm 141", "src/array_functions.hpp: + and - 57-71, cross 167-201, dot 223-290, norm 318-326, cat 356-364, star 398-410, - 431-437"]}
{"id": "C131", "title": "Construction of a nest of tetrahedra", "statement": "A nest built for a polyhedron covers exactly the polyhedron: every point of it is reached through nested tetrahedra that contain it and gets positive weights which interpolate, every other point gets none; each node has the volume of its corners, no vertex is stored twice, no index is out of range; there are at most the allowed levels of branches and, if any are allowed, no leaf is larger than the given volume and no branch than the limit of its level; the tetrahedra, permutation keys and vertex flags are exactly those of the leaves; an exception comes only from TetGen.", "quantifier": "every polyhedron with a volume, every number of levels and every volume, every TetGen that divides polyhedra and keeps to its limit; exact arithmetic", "why_tests_cant": "Which polyhedra are divided, how the storage of vertices grows and which vertices coincide depends on every input; the tests build a few nests.", "anchors": ["src/nest.tpp: construct 18-52, subdivide 54-101", "src/triangulation_simple.hpp: SimpleTet 55-158, volume 159-168, maximum_volume 170-178, correct_tetrahedra_vertex_ordering 226-230", "src/nest.hpp: tetrahedra 224-229, collect_keys 240-252, vertex_is_leaf 325-329"]}
{"id": "C132", "title": "Layers of tetrahedra of a mesh", "statement": "Every layer of a mesh fills the polyhedron with tetrahedra in positive order whose vertices are different; the last layer has no tetrahedron larger than the given volume, those between none larger than their scaled limit; a tetrahedron is connected to those of the next layer that have a corner in it or overlap it and to no others, so that every point of the polyhedron is found down to the last layer, with positive weights on the corners of one of its tetrahedra which interpolate; a point elsewhere is reported as not found; the neighbours of a vertex are the others it shares a tetrahedron with, each once, and the permutation keys those of the pairs so joined; the statistics are the total, smallest and largest volume; an exception comes only from TetGen.", "quantifier": "every polyhedron with a volume, every number of layers and every volume, every TetGen that divides polyhedra and keeps to its limit; exact arithmetic", "why_tests_cant": "Whether the connections between layers lose a tetrahedron depends on how unrelated triangulations overlap; points outside are not tried.", "anchors": ["src/triangulation_layers.hpp: TetTriLayer 48-311, locate 161-189, neighbours 190-203, TetTri 370-494, triangulate 541-671", "src/mesh.hpp: interpolate_at 135-190"]}
{"id": "C133", "title": "Comparing arrays with values, rows and other arrays", "statement": "Comparing an array with a value or with an array of its shape or of a single row gives at every place whether the element there compares; find gives the places of the elements that do; comparing rows gives for every row whether it compares to the row against it, and first, last, count and find are about these rows; shapes that do not go together are an exception; two rows match by a rotation if the one turned the given number of times, or with a negative order any number of times up to it, is the other, and by an operator if it gives the one from the other, element by element.", "quantifier": "every array that is read in bounds (strides, views), every comparison and tolerance, every rotation, order and operator; exact arithmetic", "why_tests_cant": "Wrong strides show only for arrays stored by columns and for views of part of an array; the tests compare a few whole arrays.", "anchors": ["src/array2.tpp: match 610-662, is 703-711 and 723-753, find 713-721, row_is 755-813, first, last, count, find 815-920, each_is 922-935, is 937-941", "src/comparisons.hpp: Comparer 61-170", "src/utilities.hpp: mul_mat_vec_inplace 164-171"]}
{"id": "C134", "title": "Normals of the cuts in the search for the irreducible wedge", "statement": "The search for planes that cut the first Brillouin zone ends, reads and writes in bounds and takes from every operation at most once its planes, one for an operation of order two and two for others; the special points kept are those on the inner side of all planes found. The planes taken for one operation leave a part of space that repeating this operation moves over all of space.", "quantifier": "every right-handed lattice, every list of operations without the identity and the inversion, every list of special points, every order of operations and of groups of points, all settings of special_2_folds and special_mirrors; exact arithmetic", "why_tests_cant": "A plane at the wrong angle to an axis only shows for lattices in unusual bases or for mirrors in one of the eight attempts; a failed attempt is hidden by the next one.", "anchors": ["src/bz_wedge.cpp: keep_if 21-35, have_volume 37-42, wedge_brute_force 93-370", "src/array2.tpp: match 610-635, first 464-472, set 173-187"]}
{"id": "C135", "title": "Stationary axis of an operation", "statement": "Every operation of finite order other than the identity and the inversion has a stationary axis, kept by a rotation and reversed by an improper operation, and this is the axis reported. The two further vectors reported are perpendicular to the axis, the first a shortest one and the second a shortest one not parallel to the first.", "quantifier": "every operation with entries -1, 0 and 1 (3^9 matrices, of which those of finite order are considered); perpendicular vectors: every operation for which an axis is reported", "why_tests_cant": "The axis is searched for in a table of 73 vectors; a missing one would show only for the operations that have it.", "anchors": ["src/pointgroup.cpp: rot_axes 162-178, get_rotation_axis 533-552, get_proper_rotation 588-595, orthogonal_to_axis 555-563, rotation_axis_and_perpendicular_vectors 664-684"]}
{"id": "C136", "title": "Identification of the point group", "statement": "A list of operations is identified with the one point group that has as many operations of each kind, whatever the basis the operations are given in, and reported as none if there is no such group. For every tabulated space group the point group found is the one the table gives, and adding the inversion changes neither the geometric class nor the Laue class. The different operations among some given ones are collected.", "quantifier": "every list of operations of finite order and every change of basis; all 530 tabulated space groups; every list of operations", "why_tests_cant": "The table of 32 groups is compared with the numbers of operations found; a wrong row would show only for the groups of that class, and reading beyond the operations collected need not fail.", "anchors": ["src/pointgroup.cpp: pointgroup_data 81-116, setup 215-222, ptg_get_pointsymmetry 224-240, get_pointgroup_number 248-262, get_pointgroup_class_table 285-296", "src/pointsymmetry.cpp: data 102-104", "src/spg_database.cpp: table of space groups"]}
{"id": "C137", "title": "Products and decomposition of flattened matrices", "statement": "The products of two vectors, of a square matrix and a vector, of a vector and a 3 by 3 matrix and of two square matrices, stored row by row, are the sums of products of elements. The decomposition into triangular factors is found for every square matrix, with its determinant.", "quantifier": "all sizes and all integer elements; decomposition: all rational elements", "why_tests_cant": "Tests use 3 by 3 matrices; the decomposition is used nowhere and not tested.", "anchors": ["src/linear_algebra.hpp: transpose 18-20, dot 25-38, mul_mat_vec 55-64, mul_vec_mat 65-69, mul_mat_mat 71-80, LU_decomposition 82-118"]}
{"id": "C138", "title": "Groups of special points that an operation takes to each other", "statement": "For one operation the special points are divided into groups: each group holds those points that repeating the operation takes a first one of them to, at the number of turns it takes, and no others; every special point is in a group.", "quantifier": "every basis of three independent vectors, every operation of finite order, every list of different special points; exact arithmetic", "why_tests_cant": "The groups only choose which pairs of points are tried for cutting planes; a point left out hides as another pair is found.", "anchors": ["src/bz_wedge.cpp: wedge_brute_force 196-234", "src/array2.tpp: match 610-635"]}
{"id": "C139", "title": "Special points of the first Brillouin zone", "statement": "The special points the search for the irreducible wedge starts from are the mean of the vertices of each face, the vertices, and the middle of each edge once, in this order, and all of them are in every half-space that all vertices are in.", "quantifier": "every list of points and of faces with as many edges as a closed surface without holes has; exact arithmetic", "why_tests_cant": "Edges counted twice or left out change which planes are tried, not whether the tests find a wedge for their few lattices.", "anchors": ["src/polyhedron_faces.hpp: face_points 173-187, half_edges 202-215", "src/polyhedron_faces.cpp: edges 60-91", "src/bz_wedge.cpp: 62-64", "src/bz.cpp: 97-99, 105-107, 121-123"]}
{"id": "C140", "title": "Settings of approximate comparison made one after the other", "statement": "After setters are called one on the result of the other, the result and the object have for each setting the value given last.", "quantifier": "every object and every list of setters; rational tolerances", "why_tests_cant": "The value returned by a setter is not used in the tests; all calls there are single ones.", "anchors": ["src/approx_config.hpp: Config 10-39"]}
{"id": "C141", "title": "Search for the irreducible wedge from the first zone and its operations", "statement": "With an inversion among the operations the whole search, from the special points over the planes found to the check of the part cut out, in eight attempts, ends with a part of the zone or an exception and is never undefined; whenever it ends with a part of the zone, this part is irreducible: the operations take it to all of the zone and no two of its images overlap, and the normals stored delimit it.", "quantifier": "every convex first zone that the operations keep, with as many edges as a closed surface without holes has, every point group with an operation other than the identity and the inversion, every order std::sort may give to equal elements; exact arithmetic", "why_tests_cant": "Which of the eight attempts succeeds, and with which planes, depends on the lattice and on the order of equal elements in std::sort; the tests see some lattices and one order.", "anchors": ["src/bz.hpp: BrillouinZone 158-197", "src/bz_wedge.cpp: wedge_brute_force 44-449"]}
{"id": "C142", "title": "Searching an array by comparison with a value", "statement": "The first and the last element of an array that compare with a value as asked, within the tolerances, are found and their places in the order of storage returned, or the number of elements if there is none; the elements that compare are counted. Elements that are not part of the array are never considered.", "quantifier": "every array without gaps, with or without offset, stored by rows or by columns; every comparison except le_ge, value and non-negative tolerance", "why_tests_cant": "The tests compare whole arrays; a view of some columns of an array is not contiguous and its elements are not those that are looked at.", "anchors": ["src/array2.tpp: first 677-684", "src/array2.tpp: last 685-692", "src/array2.tpp: count 693-701"]}
