{
 "claims": [
  {
   "property": "C01",
   "status": "partial",
   "theorems": [
    "C01_counts_composition",
    "C01_counts_repetition",
    "C01_counts_by_entity",
    "C01_counts_total",
    "C01_counts_union_partial",
    "C01_counts_union_refuted"
   ],
   "note": "Counts of compositions, repetitions and by entity proved for every map. Union-mask query proved for maps without a composition; the code violates it for ComplexDofMap (only the highest type of the mask is counted): C01_counts_union_refuted."
  },
  {
   "property": "C02",
   "status": "proved",
   "theorems": [
    "C02_local_order_spec",
    "C02_valid",
    "C02_injective",
    "C02_surjective",
    "C02_type_on_tet"
   ],
   "note": "Proved for every well-formed map (arbitrary nesting)."
  },
  {
   "property": "C03",
   "status": "partial",
   "theorems": [
    "C03_lookup_inverse_partial",
    "C03_lookup_rejects_invalid",
    "C03_lookup_inverse_refuted",
    "C03_lookup_wrong_value_refuted"
   ],
   "note": "Code violates it: VectorDofMap::TetDofID divides by the per-tetrahedron count; refutations with and without asserts. Proved for all maps whose repetitions (k>=2) carry only cell dofs."
  },
  {
   "property": "C04",
   "status": "proved",
   "theorems": [
    "C04_view_is_window",
    "C04_view_membership",
    "C04_components_cover",
    "C04_components_disjoint",
    "C04_view_of_view",
    "C04_view_other_component",
    "C04_view_of_view_window",
    "C04_sub_map",
    "C04_view_sub"
   ],
   "note": "Proved for every map and path, also for views of views (non-empty paths) and stored submaps."
  },
  {
   "property": "C05",
   "status": "partial",
   "theorems": [
    "C05_product",
    "C05_product_whenever_defined",
    "C05_power",
    "C05_merge_with_simplifications",
    "C05_make_compressed",
    "C05_push_back",
    "C05_same_dofs_observable",
    "C05_product_symmetry_refuted",
    "C05_product_empty_refuted"
   ],
   "note": "Proved up to symmetry labels (loci and order are the same); labels are lost because operator== ignores them (C05_product_symmetry_refuted); the product with an empty composition is undefined behaviour (C05_product_empty_refuted)."
  },
  {
   "property": "C06",
   "status": "partial",
   "theorems": [
    "C06_history",
    "C06_set_closure",
    "C06_unset_closure",
    "C06_walk",
    "C06_walk_dim",
    "C06_empty_partial",
    "C06_empty_refuted"
   ],
   "note": "Proved for every history of set/unset/union/intersection/xor/difference/complement calls. empty() proved for histories without complement and refuted with it (complement leaves bits outside the entity ranges)."
  },
  {
   "property": "C07",
   "status": "partial",
   "theorems": [
    "C07_iteration_geom_partial",
    "C07_iteration_geom_repetition",
    "C07_iteration_exact_partial",
    "C07_iteration_no_composition",
    "C07_iteration_composition",
    "C07_iteration_geom_leaf_partial",
    "C07_iteration_composition_refuted",
    "C07_iteration_nested_refuted",
    "C07_iteration_geom_refuted",
    "C07_iteration_complement_refuted",
    "C07_view",
    "C07_view_iteration_partial",
    "C07_view_iteration_geom_partial"
   ],
   "note": "Default order proved exact for all maps without composition and for compositions whose components with selected dofs are consecutive; the code violates it otherwise (three refutations), and for complemented sparsities. Geometric order proved exact and entity by entity for all maps whose compositions use one of the two types of each dimension (all leaves and repetitions included); the code violates it for other compositions (refuted). The iteration over a view is right whenever that over the map it shows is (C07_view)."
  },
  {
   "property": "C08",
   "status": "partial",
   "theorems": [
    "C08_place",
    "C08_bijection",
    "C08_conform",
    "C08_entity_image",
    "C08_identity_partial",
    "C08_composition_partial",
    "C08_identity_refuted",
    "C08_composition_refuted",
    "C08_matrix_partial",
    "C08_matrix_action_partial",
    "C08_matrix_orbits_refuted",
    "C08_matrix_vector_refuted",
    "C08_representative",
    "C08_stabilizer_partial",
    "C08_stabilizer_refuted",
    "C08_character"
   ],
   "note": "Placement, bijection and conformity between neighbouring cells proved for all entities, classes, vertex identifiers. Identity/composition law proved except for s3/s6 points on faces 2,3 where the code violates it (refuted). S4::build_dof_permutation is a signed permutation (and a group action without s3/s6 face orbits) for maps with one orbit per class; refuted for repeated orbits and vector maps. Stabilizer generators exact for nodes, edges, faces, refuted for the cell."
  },
  {
   "property": "C09",
   "status": "proved",
   "theorems": [
    "C09_solutions",
    "C09_entries",
    "C09_symmetric",
    "C09_matrix",
    "C09_residual",
    "C09_non_exists"
   ],
   "note": "All sizes (rectangular too), matrices, right-hand sides and k; also the matrix-only, residual and nonexistent-dof calls. Doubles are modelled as reals."
  },
  {
   "property": "C10",
   "status": "proved",
   "theorems": [
    "C10_order",
    "C10_again",
    "C10_solutions"
   ],
   "note": "All lists of distinct dofs and all permutations."
  },
  {
   "property": "C11",
   "status": "partial",
   "theorems": [
    "C11_solutions_partial",
    "C11_one_direction",
    "C11_homogeneous",
    "C11_rhs",
    "C11_matrix",
    "C11_extra_column",
    "C11_extra_row",
    "C11_residual",
    "C11_two_directions_refuted",
    "C11_memory_refuted"
   ],
   "note": "Proved for one direction with any value, for any number of orthogonal directions with zero values, and when the directions are not coupled by the matrix; the matrix, extra column, extra row and residual calls proved for any number of directions. The full claim is false: with two coupled directions the first prescribed value is lost (C11_two_directions_refuted); with a group of one dof the accepted work memory is overrun (C11_memory_refuted)."
  },
  {
   "property": "C12",
   "status": "proved",
   "theorems": [
    "C12_plain_sound",
    "C12_plain_enough",
    "C12_raw_sound",
    "C12_raw_enough",
    "C12_from_plain_sound",
    "C12_from_plain_enough",
    "C12_extend"
   ],
   "note": "PlainMemory, PlainMemoryX (raw and from plain memory): soundness for every base address, size and alignment, and sufficiency of the enough* queries; std::sort modelled as any permutation of the three blocks."
  },
  {
   "property": "C13",
   "status": "partial",
   "theorems": [
    "C13_no_alias_partial",
    "C13_sizes",
    "C13_defragment",
    "C13_any_order_refuted"
   ],
   "note": "Proved for histories that request nothing between an out-of-order release and the release of the last block; for all legal histories sizes, existence of the memory, absence of counter wrap and full recovery are proved. Missing: non-overlap for arbitrary release order, which is false (C13_any_order_refuted)."
  },
  {
   "property": "C14",
   "status": "proved",
   "theorems": [
    "C14_exclusive",
    "C14_step"
   ],
   "note": "All reachable states of all interleavings at mutex granularity. get() takes no lock in the code; only its value is modelled, not the data race with a growing vector."
  },
  {
   "property": "C15",
   "status": "partial",
   "theorems": [
    "C15_once_partial",
    "C15_balanced_partial",
    "C15_large_refuted"
   ],
   "note": "Proved for loops of fewer than 2^32 iterations; for larger loops the 32-bit products wrap (C15_large_refuted). The STD variant in the code does not compile when instantiated; the partition it computes is what is modelled."
  },
  {
   "property": "C16",
   "status": "proved",
   "theorems": [
    "C16_tet",
    "C16_tet_enough",
    "C16_tet_static",
    "C16_apply",
    "C16_apply_identity",
    "C16_apply_enough"
   ],
   "note": "Run-time and compile-time layouts of bilinear forms, and the two layouts for evaluating an operator of a function: in bounds, disjoint, lengths, scratch area and acceptance of a buffer of exactly the queried size."
  },
  {
   "property": "C17",
   "status": "partial",
   "theorems": [
    "C17_anitype_in_range",
    "C17_anitype_injective",
    "C17_anitype_surjective",
    "C17_anitype_inverse_partial",
    "C17_tag_partial",
    "C17_setup_oriented_refuted",
    "C17_miniblocks_partial",
    "C17_miniblocks_range_refuted",
    "C17_miniblocks_refuted"
   ],
   "note": "ANITYPE: injective, exactly the interval of the process, inverse query correct except for the first oriented dof of an edge or a face (where the code fails, see C20). The stored index tag agrees with the formula without oriented dofs; with them filling the tag fails (C17_setup_oriented_refuted). MINIBLOCKS is violated: not injective and leaves the block of the dimension whenever nd >= 2 and at least two elements are owned."
  },
  {
   "property": "C18",
   "status": "partial",
   "theorems": [
    "C18_partition_partial",
    "C18_empty_rank_refuted"
   ],
   "note": "Proved when no process owning no elements of a dimension with dofs precedes one that owns some; the code violates it otherwise (C18_empty_rank_refuted)."
  },
  {
   "property": "C19",
   "status": "partial",
   "theorems": [
    "C19_arrangement",
    "C19_in_range",
    "C19_injective",
    "C19_surjective",
    "C19_order",
    "C19_inverse_partial",
    "C19_first_refuted",
    "C19_tag_partial"
   ],
   "note": "For every arrangement: setArrangment/getArrangement; the numbering of the owned dofs is a bijection onto the interval of the process and follows the lexicographic order of the attributes (or the reverse one); the inverse query undoes it. With asserts compiled the inverse query refuses the first number of every process (C19_first_refuted). The stored tag agrees with the numbering when no dofs are oriented; with them setup fails like in C17."
  },
  {
   "property": "C20",
   "status": "partial",
   "theorems": [
    "C20_count",
    "C20_descs_complete",
    "C20_descs_distinct",
    "C20_position",
    "C20_position_injective",
    "C20_description_partial",
    "C20_description_var_partial",
    "C20_first_oriented_refuted",
    "C20_first_oriented_var_refuted"
   ],
   "note": "Description to position proved for all; position to description proved except at the first oriented dof of edges and faces, where the code compares with < instead of <= (two refutations, one for every variable list with oriented dofs)."
  },
  {
   "property": "C21",
   "status": "partial",
   "theorems": [
    "C21_numbering",
    "C21_order_free",
    "C21_objects_partial",
    "C21_objects_refuted"
   ],
   "note": "Handle version proved for every mesh order. The variant that fills Node, Edge, Face objects converts only 4 of 6 edges (C21_objects_refuted)."
  },
  {
   "property": "C22",
   "status": "proved",
   "theorems": [
    "C22_order_permutation",
    "C22_sorts",
    "C22_shared",
    "C22_padded"
   ],
   "note": "Proved for every four distinct integer ids. The calls that pad missing vertices with one repeated maximal id are covered by C22_padded."
  },
  {
   "property": "C23",
   "status": "partial",
   "theorems": [
    "C23_edge",
    "C23_edge_shared",
    "C23_face_partial",
    "C23_face_refuted"
   ],
   "note": "Edges proved. Faces: the code compares with the vertex opposite to the face; C23_face_partial characterises exactly when the sign is right, C23_face_refuted shows two neighbours that disagree."
  },
  {
   "property": "C24",
   "status": "proved",
   "theorems": [
    "C24_nodes",
    "C24_orientation",
    "C24_idempotent"
   ],
   "note": "The determinant of the code (rows a-d, b-d, c-d) becomes non-negative, i.e. the triple product (b-a).((c-a)x(d-a)) non-positive."
  },
  {
   "property": "C25",
   "status": "partial",
   "theorems": [
    "C25_spec_deterministic",
    "C25_insert_partial",
    "C25_history_partial",
    "C25_finite_history",
    "C25_iterator_partial",
    "C25_same_side_refuted",
    "C25_same_side_left_refuted",
    "C25_all_keys_refuted",
    "C25_same_half_line_rejected",
    "C25_two_half_lines_refuted"
   ],
   "note": "All histories of insertions with finite bounds, and histories with infinite bounds unless an insertion is infinite on a side that is infinite already with another value (the conflict is not noticed, C25_same_side_refuted, C25_same_side_left_refuted). The same half-line to the left with another value is rejected when nothing is joined to it (C25_same_half_line_rejected) and accepted when a half-line to the right starts there (C25_two_half_lines_refuted). Lookup in a map with one value for all keys fails (C25_all_keys_refuted). Also the search through iterators. parse_interval_map and the bound searches that do not compile are not modelled."
  },
  {
   "property": "C26",
   "status": "partial",
   "theorems": [
    "C26_base_set",
    "C26_built",
    "C26_number",
    "C26_at",
    "C26_arrays_inverse",
    "C26_arrays_size",
    "C26_arrays_contains",
    "C26_empty_refuted",
    "C26_lower_bound_partial",
    "C26_upper_bound_partial",
    "C26_find",
    "C26_moves",
    "C26_lower_bound_end_refuted",
    "C26_lower_bound_empty_range_refuted",
    "C26_minus_refuted",
    "C26_greater_equal_refuted",
    "C26_increment_partial",
    "C26_increment_empty_range_refuted",
    "C26_increasing",
    "C26_size",
    "C26_iteration",
    "C26_back",
    "C26_by_number",
    "C26_by_value",
    "C26_bounds",
    "C26_order"
   ],
   "note": "interval_enum for every list of nonempty increasing intervals: size, numbering, reverse lookup, membership, bounds, iteration both ways, comparison. The enumerator of arrays with an inserted number (ext_range_array_enum) for every nonempty list of arrays, every range function and every pair of positions: the number of an array is its place in the increasing listing, begin(i)/operator[](i) gives the element at that place, size and contains are right; the empty set is undefined behaviour. For positive ranges ++ visits the elements in order up to end(), lower_bound and upper_bound give the first element not less / greater, find and the comparisons agree with the order. Refuted: with an empty range ++ gives arrays outside of the set and lower_bound fails an assertion, lower_bound past the last array reads behind the end, -= goes forward, >= is <. The iterator made by begin is modelled by the keys its positions point to."
  },
  {
   "property": "C27",
   "status": "proved",
   "theorems": [
    "C27_inverse"
   ],
   "note": "All nine cells; the division by a zero determinant is outside the hypothesis. Doubles are modelled as exact reals."
  },
  {
   "property": "C28",
   "status": "proved",
   "theorems": [
    "C28_barycentric",
    "C28_barycentric_psi",
    "C28_element",
    "C28_points"
   ],
   "note": "Single tetrahedra, the variant with given PSI, the batched set-up of XYP, PSI, DET, MES and the quadrature points."
  },
  {
   "property": "C29",
   "status": "proved",
   "theorems": [
    "C29_solve",
    "C29_lower_only",
    "C29_inverse"
   ],
   "note": "All sizes and right-hand sides, both ways of sharing memory; throws exactly on matrices that are not positive definite; only N(N+1)/2 cells of the work memory are touched. The Eigen branch is not modelled."
  },
  {
   "property": "C30",
   "status": "partial",
   "theorems": [
    "C30_permuted",
    "C30_solve_partial",
    "C30_small_partial",
    "C30_solve_refuted",
    "C30_inverse_shared_refuted"
   ],
   "note": "Exact pivoting (the tolerance is a model parameter set to 0). The final step applies the column permutation q in the wrong direction: the answer is right for all right-hand sides iff q is an involution (C30_solve_partial), always for N <= 2 (C30_small_partial); a 3x3 witness refutes the general claim. fullPivLU_inverse with shared memory loses A (C30_inverse_shared_refuted)."
  },
  {
   "property": "C31",
   "status": "partial",
   "theorems": [
    "C31_transposed",
    "C31_product_partial",
    "C31_product_refuted"
   ],
   "note": "The transposed product holds for every number of blocks. The plain product clears only block 0 and adds to the old contents of the others: proved for one block or zeroed memory (C31_product_partial), refuted for two blocks (C31_product_refuted)."
  },
  {
   "property": "C32",
   "status": "partial",
   "theorems": [
    "C32_form_partial",
    "C32_form_fusive",
    "C32_apply_partial",
    "C32_apply_memory_refuted",
    "C32_apply_fused_refuted",
    "C32_selection_refuted"
   ],
   "note": "All overloads of applyDU (constant or not, PerPoint, PerTetra, PerSelection, fixed type, fusive), any number of diagonal parts in both operators, with and without the normal, any previous contents of the work memory. Not covered: PerSelection with a full tensor that depends on the element index (refuted), evaluation of vector expressions on several fused elements (refuted) and with the memory the library reserves (refuted). The Eigen branches of the products are not modelled."
  },
  {
   "property": "C33",
   "status": "partial",
   "theorems": [
    "C33_directional",
    "C33_nedelec",
    "C33_normal",
    "C33_compaction",
    "C33_compaction_order"
   ],
   "note": "Contraction with the normal, extraction of one directional derivative, expansion of the Nedelec curl into the gradient, and the sub-matrix compaction of interpolateOnRegion for lists of dofs in increasing order. For a list out of order the compaction loses an entry (C33_compaction_order); that the iteration over a map gives an increasing list is proved only where C07 proves the order, hence partial."
  },
  {
   "property": "C34",
   "status": "partial",
   "theorems": [
    "C34_from_gradient",
    "C34_inherited_div_refuted",
    "C34_inherited_dudx_refuted"
   ],
   "note": "All spaces built by repetition, composition, union and derivation, for the operators defined for them (supp), any number of fused elements and points, any previous memory contents. That a library space's own DIV, CURL, DUDX agree with its GRAD is an assumption of base_ok (see C37). False for the DIV inherited by user classes (row count 3) and the inherited DUDX of a gradient in several parts."
  },
  {
   "property": "C35",
   "status": "proved",
   "theorems": [
    "C35_dofs",
    "C35_dual",
    "C35_dual_nodal",
    "C35_coefficients",
    "C35_independent",
    "C35_dual_library"
   ],
   "note": "All nine spaces, all non-degenerate elements, all fusion counts. P0, CR1, RT0, ND0 use quadrature: the values are 1 and 0 up to 4 times the error of the formulas for affine functions (quads_ok); exact for the nodal spaces. Doubles are reals."
  },
  {
   "property": "C36",
   "status": "proved",
   "theorems": [
    "C36_sum_one",
    "C36_gradients",
    "C36_tables",
    "C36_reproduce"
   ],
   "note": "Partition of unity and gradients also for the written tables; polynomials as arbitrary coefficient arrays of total degree at most the degree of the space."
  },
  {
   "property": "C37",
   "status": "proved",
   "theorems": [
    "C37_differentiable",
    "C37_derivative_unique",
    "C37_operators",
    "C37_geometry",
    "C37_library_base"
   ],
   "note": "All nine spaces, IDEN, GRAD, DIV, CURL, DUDX, any number of fused elements and points, any previous contents of memory; derivative in the sense of derivable_pt_lim. Geometry data as prepared by internalFem3DtetGeomInit_Tet (C37_geometry)."
  },
  {
   "property": "C38",
   "status": "partial",
   "theorems": [
    "C38_nodal_partial",
    "C38_p3_refuted",
    "C38_cr1_refuted",
    "C38_p0_partial",
    "C38_p0_refuted",
    "C38_unimplemented"
   ],
   "note": "True for P1, P2, B2, P3 except dofs 17 and 19. False for P3 dofs 17 and 19 (another face), CR1 (another face), P0 (output array not cleared). B4, RT0, ND0 are not implemented."
  },
  {
   "property": "C39",
   "status": "partial",
   "theorems": [
    "C39_symbolic_partial",
    "C39_p3_refuted",
    "C39_vector_refuted"
   ],
   "note": "True for P0, P1, P2, B2, B4, CR1, P3 except dofs 17 and 19. False for P3 (functions 17 and 19 exchanged). RT0 and ND0 always end with an exception. Expressions are modelled as matrices of reals with the documented effect of the interface."
  },
  {
   "property": "C40",
   "status": "partial",
   "theorems": [
    "C40_operator_matrix",
    "C40_repeated",
    "C40_composed",
    "C40_united",
    "C40_two_operators",
    "C40_two_operators_refuted"
   ],
   "note": "All spaces built by repetition, composition, union and derivation; also that two operators evaluated one after the other both survive, except that the DIV of a composition is overwritten by the next operator (C40_two_operators_refuted)."
  },
  {
   "property": "C41",
   "status": "partial",
   "theorems": [
    "C41_dof",
    "C41_memory",
    "C41_vector",
    "C41_complex",
    "C41_union",
    "C41_by_dofs",
    "C41_vector_by_dofs",
    "C41_dual",
    "C41_union_dual_partial",
    "C41_union_usable",
    "C41_union_refuted",
    "C41_region_memory_refuted"
   ],
   "note": "Every nesting of Vector, Complex and Union over the nine library spaces, all functions, dofs and fusion counts, with the requested memory. Also duality of the basis: for spaces without unions always; for unions the weights are computed on the reference tetrahedron only, which is right for members made of scalar spaces (up to the tolerance of the constructor) and wrong for RT0 + B4^3 on a mirrored element. The memory reported for a node by interpolateOnRegion is less than what a vector space asks for."
  },
  {
   "property": "C42",
   "status": "partial",
   "theorems": [
    "C42_equal_spaces_partial",
    "C42_refl",
    "C42_repetition_refuted"
   ],
   "note": "Equal spaces with equal repetition counts are the same space. Equality ignores the number of copies (C42_repetition_refuted)."
  },
  {
   "property": "C43",
   "status": "proved",
   "theorems": [
    "C43_exact",
    "C43_cartesian",
    "C43_interior",
    "C43_range",
    "C43_symmetric",
    "C43_rounding",
    "C43_affine"
   ],
   "note": "All 64 formulas. Errors are stated for the tabulated constants as exact decimals (1e-18) and for tables rounded to any precision d (C43_rounding). The mean over a simplex is defined by barycentric coordinates on the reference simplex; that affine maps keep mean values is not proved. The text of the tables was transcribed by a script."
  },
  {
   "property": "C44",
   "status": "partial",
   "theorems": [
    "C44_table",
    "C44_agrees_partial",
    "C44_agrees_refuted",
    "C44_shared_refuted"
   ],
   "note": "Contents of the assembler's index table characterised for every labelled map; agreement with data access proved for node, edge and one-point orbits (all built-in spaces). The code violates it for s3/s6/s4... orbits: the table uses the inverse placement (two refutations)."
  },
  {
   "property": "C45",
   "status": "partial",
   "theorems": [
    "C45_renumber",
    "C45_oriented_refuted",
    "C45_mesh",
    "C45_mesh_oriented_refuted"
   ],
   "note": "Positions and values proved for all dofs of one element (C45_renumber) and for whole meshes with blocks, several tags, skipped dimensions and short arrays (C45_mesh); the sign change required for oriented dofs is a no-op in the code (C45_oriented_refuted), and edges with dofs of trivial symmetry are skipped altogether (C45_mesh_oriented_refuted)."
  },
  {
   "property": "C46",
   "status": "proved",
   "theorems": [
    "C46_face_normal",
    "C46_area",
    "C46_direction",
    "C46_closed",
    "C46_centroid",
    "C46_diameter",
    "C46_diameter_attained"
   ],
   "note": "Exact reals. The text of normal_direction at geometry.h:175 does not compile as written; modelled with the evident argument order."
  },
  {
   "property": "C47",
   "status": "proved",
   "theorems": [
    "C47_qr",
    "C47_exact"
   ],
   "note": "Residual bounded by the tolerance for every tolerance; exact for tolerance zero."
  },
  {
   "property": "C48",
   "status": "partial",
   "theorems": [
    "C48_solve",
    "C48_projection",
    "C48_edge_points_refuted",
    "C48_face_points_refuted"
   ],
   "note": "The solution of the restricted system and the entries that change (C48_solve, C48_projection); the assembly of the matrix is C32. Refuted: the barycentric coordinates of the points of an edge or a face are only partly written, the rest is what the memory held before."
  },
  {
   "property": "C49",
   "status": "partial",
   "theorems": [
    "C49_sum",
    "C49_integral",
    "C49_degree",
    "C49_tensors",
    "C49_derivatives",
    "C49_points",
    "C49_at_partial",
    "C49_stack",
    "C49_stack_refuted",
    "C49_at_refuted"
   ],
   "note": "Cell, faces with and without a normal, edges, vertices, points given by the caller; all library spaces and operators; error at most 1e-18 times size times the norm of the polynomial (the tabulated constants are rounded), C49_degree says which degree suffices. fem3DpntX with fewer weights than points writes outside its array (C49_at_refuted, excluded in C49_at_partial); the memory on the stack suffices without a normal (C49_stack) but not with one (C49_stack_refuted). Not modelled: composite operators (C40) as OpA/OpB here, fusive functions, rounding of double operations."
  },
  {
   "property": "C50",
   "status": "partial",
   "theorems": [
    "C50_derivatives_partial",
    "C50_variables_partial",
    "C50_symmtx3",
    "C50_tensor_variables_partial",
    "C50_symmetric_partial",
    "C50_reciprocal_refuted",
    "C50_quotient_refuted",
    "C50_hypot_one_refuted",
    "C50_hypot_order_refuted",
    "C50_pow_zero_refuted",
    "C50_symmetric_variable_refuted",
    "C50_symmetric2_refuted"
   ],
   "note": "Every expression over every storage set, every order, every sound leaf; corollaries for VarPool<N>, tensor variables (PhysTensorStorageSet<N>) and functions of symmetric 3x3 tensors. Excluded by admissible, with refutations: a divisor without NotTrivialSecondDeriv (1/x and x/y of variables lose the second derivative), hypot of one element (sign) or with a first element of a lower order; pow(x, 2.0) at 0; Var over a symmetric tensor; BiSymTensor4Rank<2>::index. Doubles are reals."
  },
  {
   "property": "C51",
   "status": "partial",
   "theorems": [
    "C51_access",
    "C51_iterator",
    "C51_dot",
    "C51_matrix",
    "C51_conversion",
    "C51_symmetric3",
    "C51_matrix3",
    "C51_tensor3",
    "C51_symmetric_product_partial",
    "C51_symmetric_product_refuted",
    "C51_det_scale_refuted",
    "C51_det_symmetric_refuted",
    "C51_iterator_difference_refuted"
   ],
   "note": "All sizes N for storage, iterators (BiSymTensor4Rank<N>::index only for N = 3, see C50_symmetric2_refuted), Dot, SquareFrobNorm, Trace, Mul, forms, matrix products, Transpose, Sym, conversions, TensorSquare, TensorSymMul2; N = 3 also Det, Adj, Inv, Identity and the fourth rank operations. Refuted: Det of PhysMtx<2> (scale-dependent threshold), Det of SymMtx<4>, iterator difference beyond 127, the product of symmetric matrices that do not commute. Missing: Det of other sizes beyond these refutations, Inv of other sizes (fullPivLU_inverse, C30), products and conversions of fourth rank tensors of other sizes, I/O. Doubles are reals."
  },
  {
   "property": "C52",
   "status": "partial",
   "theorems": [
    "C52_strain",
    "C52_invariants",
    "C52_volume",
    "C52_derivatives",
    "C52_stress_elements",
    "C52_stress_partial",
    "C52_reciprocal_refuted"
   ],
   "note": "Strains and variations, values and derivatives of all invariants, elements of P and dP, and the stress of every admissible smooth energy along all variations of F. Excluded with a refutation: a divisor such as I1 or I4fs whose flag says that the second derivative with respect to E vanishes (1/I1 loses a term); hypot as in C50. Doubles are reals."
  },
  {
   "property": "C53",
   "status": "partial",
   "theorems": [
    "C53_assemble",
    "C53_schedule",
    "C53_deterministic",
    "C53_modes",
    "C53_status",
    "C53_matrix",
    "C53_rhs",
    "C53_template",
    "C53_template_then_assemble",
    "C53_distributed",
    "C53_distinct_spaces_refuted"
   ],
   "note": "All insertion modes, all schedules of the row updates, all distributions. For equal trial and test spaces, and for different ones on a process without ghost rows; with ghost rows refuted (they are not marked, the row index leaves the interval). INMOST rows are lists of pairs, lower_bound by its specification, locks as atomicity of a row update, finite doubles are reals and the others a separate value."
  },
  {
   "property": "C54",
   "status": "partial",
   "theorems": [
    "C54_densify",
    "C54_densify_in_place",
    "C54_sparsify",
    "C54_round_trip",
    "C54_mask",
    "C54_copy_csc",
    "C54_view",
    "C54_view_make_as_sparse_refuted",
    "C54_matrix",
    "C54_vector",
    "C54_independent",
    "C54_prepared_partial",
    "C54_prepared_refuted",
    "C54_prepared_both_refuted",
    "C54_system",
    "C54_matrix_from_system_partial",
    "C54_matrix_from_system_refuted",
    "C54_vector_from_system_refuted",
    "C54_ids",
    "C54_memory_partial",
    "C54_memory_refuted",
    "C54_defragment_matrix",
    "C54_defragment_vector_refuted",
    "C54_copy",
    "C54_assign_refuted"
   ],
   "note": "Conversions, mask, copies of columns and the element computation hold for every valid sparsity. Refuted: MatSparsityView::make_as_sparse loses nnz; sparsity kept for a function for both with a full matrix and a sparse vector, and for separate functions given besides one for both; the right-hand side taken from a function for both gets the numbers of the matrix; no memory for the right-hand side function when the matrix function needs none; every thread tidies the right-hand side pool of thread 0; operator= mixes up the work sizes."
  },
  {
   "property": "C55",
   "status": "partial",
   "theorems": [
    "C55_processes",
    "C55_fits",
    "C55_tetrahedra_partial",
    "C55_cover_partial",
    "C55_once_partial",
    "C55_conforming_partial",
    "C55_volume_partial",
    "C55_cube_partial",
    "C55_box_refuted"
   ],
   "note": "Proved for every box, grid and number of processes for which the parts of the axes do not run over the end (all_fit; C55_fits gives sufficient conditions, a single process always fits) and whose nodes can be counted in 32 bits. Refuted otherwise: 4 processes and 5 x 1 x 1 steps give cells outside the box. ResolveShared (merging the nodes of processes) is INMOST's and not modelled."
  },
  {
   "property": "C56",
   "status": "partial",
   "theorems": [
    "C56_elementwise",
    "C56_sums",
    "C56_extrema",
    "C56_wrms_partial",
    "C56_wrms_refuted",
    "C56_inverse_test",
    "C56_constraints",
    "C56_combination",
    "C56_combination_refuted",
    "C56_matvec_refuted",
    "C56_linear_matrix",
    "C56_linear_result_partial",
    "C56_linear_result_refuted",
    "C56_parameters",
    "C56_verbosity",
    "C56_user_functions",
    "C56_assembler_refuted",
    "C56_lifecycle_partial",
    "C56_lifecycle_refuted",
    "C56_scale_refuted",
    "C56_move_refuted"
   ],
   "note": "Proved: element by element operations with any aliasing, sums, extrema, inverse test and constraints over the whole distributed vector for every order of reduction, linear combinations (result distinct or the first vector), matrix used by solves, parameters by name for every history, agreement of user function failures, life of the object when Init follows a replaced matrix or solver. Refuted: weighted mean norms and length on several processes (local size), matrix-vector product (computed into a copy), exchanged answers after a success above the tolerance, SetAssembler alone, Solve after SetMatrix without Init, size of the scaling vector, move constructor (double release)."
  },
  {
   "property": "C57",
   "status": "partial",
   "theorems": [
    "C57_tag_room",
    "C57_tag_exact",
    "C57_tag_fixed",
    "C57_tag_create",
    "C57_tag_load_partial",
    "C57_tag_load_refuted",
    "C57_integral_local",
    "C57_integral",
    "C57_polynomial",
    "C57_template",
    "C57_evaluation_partial",
    "C57_evaluation_refuted",
    "C57_status_partial",
    "C57_status_refuted"
   ],
   "note": "Proved: room in created tags for every dof (both modes, sizes characterised), integrals for every schedule, thread number, distribution and order 0..20, exactness for piecewise polynomials, template versions. Partial: an existing tag is loaded without a check of its size (refuted in general), evaluation points only for cells stored in the positive order (refuted otherwise), status line below 1000 iterations (refuted from 1000 on: write before the string)."
  },
  {
   "property": "C58",
   "status": "partial",
   "theorems": [
    "C58_cell_partial",
    "C58_diffusion_partial",
    "C58_minimum_partial",
    "C58_laplace_partial",
    "C58_laplace_constant_partial",
    "C58_projection",
    "C58_best_approximation",
    "C58_reproduction",
    "C58_neumann_refuted",
    "C58_composition_refuted"
   ],
   "note": "Proved for every distribution over processes: solutions of the assembled diffusion system = prescribed Dirichlet values and Galerkin equations; minimum of the energy; Laplace; projection = best approximation, reproduction. Partial: Neumann data are ignored when the space has no dofs on faces (refuted in general), Dirichlet dofs of compositions whose iteration is not exact (refuted). Entries are assumed zero or above the drop tolerance. The linear solver is not modelled."
  },
  {
   "property": "C59",
   "status": "partial",
   "theorems": [
    "C59_eigen_partial",
    "C59_rotation",
    "C59_eigen_small",
    "C59_stagnation_refuted",
    "C59_sort",
    "C59_svd_partial",
    "C59_svd_product",
    "C59_completion_partial",
    "C59_svd_singular_refuted",
    "C59_svd_completion_refuted",
    "C59_svd_tiny_refuted"
   ],
   "note": "Proved: orthonormal vectors in every run, eigenpairs up to 10 n^2 eps on success, success for n <= 2, rotation step, sorting, |A v_j| = s_j decreasing, A v_j = s_j u_j above eps, product up to K eps and exact above eps, independence of U/V requests. Refuted: success for every matrix (n = 3 stagnates between the two thresholds), orthogonality of the larger factor (singular A, completion, elements of size sqrt(eps)). Convergence in 50 sweeps for n > 2 is not proved. The Eigen branch is not modelled."
  },
  {
   "property": "C60",
   "status": "partial",
   "theorems": [
    "C60_bounds",
    "C60_nodes",
    "C60_zero",
    "C60_degenerate_ignored",
    "C60_max_det",
    "C60_mean_order",
    "C60_copies",
    "C60_mean_bounds",
    "C60_diagonal",
    "C60_scaling",
    "C60_abs_partial",
    "C60_hessian",
    "C60_weights",
    "C60_cell",
    "C60_field",
    "C60_boost",
    "C60_small_patch",
    "C60_max_det_order_refuted",
    "C60_voigt",
    "C60_limits",
    "C60_lifted",
    "C60_mean_diagonal"
   ],
   "note": "Proved: bounds and anisotropy at every node for every input and solver outcome, Voigt storage, exact Hessian of quadratics, |H| (eigenpairs of H up to 90 eps when the solver succeeds), weights, flags and the single retry, dependence of a node on its own cells only, largest determinant, order independence, idempotence and bounds of the geometric mean and its value for diagonal metrics, the limited eigenvalues, the cell chosen and the lifted eigenvalues at nodes without a regular cell, zero field. Refuted: with strategy 0 the order of cells decides between equal determinants. Finding: the volume-weighted value of a patch below M_lambda_min always becomes M_lambda_min (C60_small_patch). Missing: accuracy of |H| when the eigensolver fails; the Eigen branch, tags, statistics and exchange are not modelled."
  },
  {
   "property": "C61",
   "status": "partial",
   "theorems": [
    "C61_unique",
    "C61_derivatives",
    "C61_barycentric_partial",
    "C61_barycentric",
    "C61_fused_refuted",
    "C61_points",
    "C61_tensor_partial",
    "C61_tensor_points",
    "C61_tensor_band",
    "C61_stack",
    "C61_stack_refuted",
    "C61_polynomial"
   ],
   "note": "Proved: values at barycentric and Cartesian points for all library spaces and operators, with and without tensor, uniqueness and existence of the value, exact polynomials, room on the stack for q <= MAXPNTNUM. Refuted: the product clears only the block of the first element, so old contents of opU are added for the others without Eigen (with a tensor: old contents of the work memory, C61_tensor_partial); the check of the stack variants compares q with 4 * MAXPNTNUM, and every q in between overruns the stack. Missing: composite spaces with several elements (refuted in C32); the Eigen branch is not modelled."
  },
  {
   "property": "C62",
   "status": "partial",
   "theorems": [
    "C62_walk",
    "C62_begin",
    "C62_next",
    "C62_everything",
    "C62_no_variable",
    "C62_mask_refuted",
    "C62_vector_partial",
    "C62_vector_order_refuted"
   ],
   "note": "Proved for all variables, meshes and slices whose mask asks for oriented dofs together with the unoriented ones, or where the slice has no unoriented ones: the loop ends, visits the selected places once and in order; begin and ++ separately; number of all places. Refuted: a mask with only EDGE_ORIENT or FACE_ORIENT starts with an unoriented dof of the first owned element; operator>= of iteratorByVector is <. Simplified: a variable index out of range is rejected at once. Meshes are states of local ids, INMOST itself is not modelled."
  },
  {
   "property": "C63",
   "status": "partial",
   "theorems": [
    "C63_vec_to_tag",
    "C63_tag_to_vec",
    "C63_vec_to_tags",
    "C63_tags_to_vec",
    "C63_vec_to_var",
    "C63_vec_round_trip",
    "C63_tag_to_tag",
    "C63_var_to_var",
    "C63_tag_to_tags_partial",
    "C63_tags_to_tag_partial",
    "C63_tag_to_var_partial",
    "C63_var_to_tag_partial",
    "C63_tags_round_trip_partial",
    "C63_shift_refuted",
    "C63_anitype"
   ],
   "note": "Proved: copies between vectors and tags, tag to tag of the same layout, round trips of vectors, ANITYPE as an instance. Copies between the common tag and the tags of the variables are proved when the unoriented dofs on an edge or face are fewer than 256, or there are no oriented ones (_partial). Refuted: the shift is kept in an unsigned char, for 256 or more unoriented dofs of a variable its last oriented dof on every edge is not copied. Missing: ExchangeData, source equal to target."
  },
  {
   "property": "C64",
   "status": "partial",
   "theorems": [
    "C64_maps",
    "C64_same_mesh",
    "C64_unknown_anitype_partial",
    "C64_unknown_ordered_partial",
    "C64_stale_refuted",
    "C64_grown_refuted",
    "C64_intervals_partial",
    "C64_intervals_refuted"
   ],
   "note": "Proved: the maps lead to the elements when they are new or forced and for any sequence of setups on an unchanged mesh; with C17 and C19 an unknown leads back to its element (_partial as there). Refuted: setup never forces the update, so after a change of the mesh the old map is used, for another element or out of bounds; with two dimensions the interval tags mix the elements of both. Missing: assignment of GlobalIDs."
  },
  {
   "property": "C65",
   "status": "partial",
   "theorems": [
    "C65_prefix_found",
    "C65_names_partial",
    "C65_tags",
    "C65_destroy",
    "C65_other_enumerators",
    "C65_saved_refuted",
    "C65_documented",
    "C65_anitype_order",
    "C65_simple",
    "C65_base_partial",
    "C65_base_refuted",
    "C65_nospecified_refuted",
    "C65_locked_refuted"
   ],
   "note": "Proved: the search for a prefix ends, histories of setups and destructions do not clash on a mesh without generated names, tags added and removed, documented orders (also of ANITYPE), base made by the template setter. Refuted: tags of an earlier process stored in a mesh make setup throw, a base given by pointer or value is replaced in setup, NOSPECIFIED is accepted, no type can be chosen after setBaseEnumerator<T>(). The counter is unbounded (unsigned int in the code)."
  },
  {
   "property": "C66",
   "status": "partial",
   "theorems": [
    "C66_value_unique",
    "C66_gather_partial",
    "C66_available_partial",
    "C66_tags_partial",
    "C66_tags_available_partial",
    "C66_tags_count",
    "C66_shared_partial",
    "C66_gather_refuted",
    "C66_tags_component_refuted",
    "C66_tags_component_partial",
    "C66_tags_leaf_refuted"
   ],
   "note": "Proved for all maps whose compositions use one of the two types of each dimension, all components, vertex orders and contents of the tags; shared values for unoriented dofs and oriented edges. Refuted: values are lost in compositions of oriented and unoriented edge dofs (as C07); a component of a list of tags is written behind the places of the earlier components; a variable without components given as a list of one tag gathers nothing. Oriented faces keep the quirk of C23."
  },
  {
   "property": "C67",
   "status": "partial",
   "theorems": [
    "C67_left_out",
    "C67_locus",
    "C67_table",
    "C67_gather_partial",
    "C67_computed",
    "C67_needed"
   ],
   "note": "Places, signs and index tables proved for all maps; gathered values for the maps of C66 (compositions with one type per dimension), hence _partial. The variables of the enumerator and the test functions of the assembler are taken as one map."
  },
  {
   "property": "C68",
   "status": "partial",
   "theorems": [
    "C68_tet",
    "C68_locus",
    "C68_order_partial",
    "C68_order_refuted",
    "C68_sym_refuted",
    "C68_is_valid_refuted",
    "C68_at",
    "C68_at_place_partial",
    "C68_at_place_refuted",
    "C68_view_place",
    "C68_view_members",
    "C68_view_order",
    "C68_view_at_partial"
   ],
   "note": "Numbers and places: proved for all maps, as is at() by number. Records: number and place are tested separately, so a record mixing two dofs is accepted (C68_order_refuted); with the symmetry number every record is rejected (C68_sym_refuted); isValid() without a map is wrong both ways (C68_is_valid_refuted). at() by place: proved for the maps of C03, refuted for repetitions of other dofs. Views: membership of numbers, places and records proved for all paths."
  },
  {
   "property": "C69",
   "status": "partial",
   "theorems": [
    "C69_history",
    "C69_walk",
    "C69_difference",
    "C69_view_refuted"
   ],
   "note": "Proved for all maps with fewer than 2^32 dofs (differences: 2^31). For views the record mixes the number in the view with the position in the enclosing map (C69_view_refuted)."
  }
 ]
}