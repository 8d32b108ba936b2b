# Formal model of INMOST-FEM in Rocq (Coq 8.16.1)

## Layout

`rocq/theories/` holds, per subsystem `X`:

* `XModel.v`  – executable (or real-valued) Gallina transcription of the code, each definition citing file:lines under `/repo`;
* `XSpec.v`   – the small independent vocabulary in which the property is stated (where the model's own functions would not be a fair statement);
* `XProofs.v` – lemmas;
* `XProps.v`  – only `Theorem ... Proof. exact lemma. Qed.`, `Print Assumptions` and `Example`s showing that hypotheses are met by concrete non-trivial data.

Names: `Cnn_…` proves (part of) property Cnn; suffix `_partial` = only part of the English property, what is missing is said in the comment and in MANIFEST.json; suffix `_refuted` = the property is false of the faithful model, the witness is the finding.

## Modelling conventions

* Out-of-bounds access, failed `assert`, thrown exceptions are explicit outcomes (`None` / error constructors); array code runs on a bounds-checked store.
* C++ `double` is modelled as the real field R: rounding is not modelled. Integers are unbounded unless the property is about wrap-around.
* Loops are structural folds with the same order of reads and writes as the source, so aliasing and stale memory are visible.
* Virtual dispatch is an inductive type (tree of dof maps / spaces) with one match arm per subclass override.
* Concurrency: operations under one mutex are atomic steps; every interleaving is a list of such steps.

## Plan per property

| Id | What is modelled | How it is proved |
|----|------------------|------------------|
| C01–C05 | dof map tree (Unite / Vector / Complex / views, `VwModel.v`: views of views and submaps), all overrides of tetdofmap.cpp | induction on the tree; finite sweep over the 6 geometric types |
| C06 | 4 bit masks of TetGeomSparsity as in tetdofmap.cpp | finite sweeps over masks lifted with forallb_forall, histories by induction |
| C07 | Begin/Increment/End by sparsity, in both orders, also of views (`ViterModel.v`). `GeomIterSpec.v`: entity by entity, compositions with one type per dimension | induction on the tree (for the geometric order: the list of blocks of entities, and the restart on one entity); witnesses for the compositions where it fails |
| C08 | DofSymmetries index maps and S4 tables | finite sweep over permutations and classes, arithmetic for multiplicities |
| C09–C11 | dc_on_dof.h/.inl on function matrices over R | algebra on finite sums |
| C12–C16 | fem_memory.h, fem_memory_parallel.h, mutex_type.h, core.inl layout | arithmetic; state machines with invariants over all histories |
| C17–C20 | EnumModel.v: global_enumerator.{h,cpp}; OeModel.v: OrderedEnumerator (setup of loc_emap, index_byMap, inverse query, tag) | mixed-radix arithmetic, prefix sums, witnesses where false; C19 from C26: the keys of the owned dofs are the set numbered by loc_emap |
| C21–C24 | ordering.inl | finite sweeps over permutations, order-isomorphism argument for arbitrary ids |
| C25 | IvlModel.v: interval_map (insert, internal_find, at, contains, iterators), entries kept as a sorted list, infinite ends as flags | invariant (sorted, disjoint, full cover) over histories; refinement to partial functions in IvlSpec.v |
| C26 | IenModel.v: interval_enum; ExtModel.v: ext_range_array_enum (setup with all its tables, operator[] both ways, contains); ExtModel2.v: lower_bound, upper_bound, find, arithmetic and comparison of iterators; ExtModel3.v: operator++ with the positions in the tables kept in the iterator | refinement to the sorted list of elements; for the arrays the tables are characterised as sums over the stored set, the number of an array as the number of smaller elements; ++ is shown to give the iterator that begin makes for the next number, every branch separately |
| C27–C30 | geometry.h, core.inl | field/ring algebra over R; induction for Cholesky and LU |
| C31 | `CoreModel.v`: fusive_AT_mul_B, fusive_A_mul_B (core.inl:28-92) | loop invariants; the second product only clears block 0, so it is proved for one block or zeroed memory and refuted otherwise |
| C32 | `CoreModel.v`: all applyDU overloads (diff_tensor.h:275-993), internalFem3Dtet, internalFem3DApply without a tensor (core.inl:277-575) | `CoreSpec.v` states the quadrature sum (`form`) and what a block-diagonal operator matrix represents (`band_of`); every trait combination is reduced to one "cells written / values allowed" invariant. Refuted: PerSelection tensors using the element index, fused evaluation of vector expressions, the memory reserved for evaluation |
| C33 | ProcessNormal (core.h:175-195), the in-place operators of operators.h and nedelec_0.h | invariant: the write position never passes the read position |
| C34 | `SpModel.v`: applyDIV, applyCURL, applyDUDX of library, Vector, Complex, Union and user-derived spaces (fem_space.cpp:232-372, 505-654, 742-930) with the memory they use | one specification `gspec` for an operator call (block matrix, frame, views used), proved for each combinator and closed by induction on the space; the inherited DIV and DUDX are refuted |
| C35 | `BasModel.v`: `interpolate` of the nine library spaces (spaces/*.h Dof::interpolate); formulas are lists of points and weights | dofs of any function (`dof_value`), then of the basis functions; geometry of normals and tangents from C46; errors of formulas are a parameter |
| C36 | as C35 and C37 | products of affine functions and barycentric identities (ring), closed under sums |
| C37 | `BasModel.v`: applyIDEN, applyGRAD, applyDIV, applyCURL, applyDUDX of the nine spaces on bounds-checked memory | loop invariants on the written cells; derivatives by `derivable_pt_lim` |
| C38 | `BasModel.v`: DOF_coord (operators.h:722-817) | case analysis, witnesses for P0, CR1, P3 |
| C39 | `BasModel.v`: Basis::eval, expressions as real matrices | case analysis, witnesses for P3, RT0, ND0 |
| C40 | `SpModel.v`: applyOP of Vector, Complex, Union (fem_space.inl:70-166, realloc_rep_mtx) | as C34; `SpSpec.v` gives the entries of the matrix, `read_band` reads the result from memory |
| C41 | `IntModel.v`: interpolateOnDOF, interpolateByDOFs and their memory requests of Vector, Complex, Union (fem_space.cpp:373-504, 710-741, 946-1006), setupInterpolation (1026-1159) | induction on the space; `IntSpec.v` gives the value of a dof of a composite space; for unions: Gram matrix in barycentric coordinates does not depend on the element; witnesses RT0 + B4^3 and Vector(3, P1) |
| C48 | `IntModel.v`: the points, the in-place compaction and the solution in interpolateOnRegion (fem_space.cpp:125-224) | compaction invariant (read position never below write position) with C29 |
| C49 | `FiModel.v`: fem3Dtet, fem3Dface, fem3DfaceN, fem3Dedge, fem3Dnode, fem3DpntL, fem3DpntX (operations/int_tet.inl, int_face.inl, int_edge.inl, int_pnt.inl) and MemoryLegacy (fem_memory.h:223-261), composed of the models of C28, C31-C33, C37, C43 | composition: points on the region, geometry, operators, contraction; degree of the integrand by the algebra of polynomials on a region; exactness from C43 |
| C50 | `AdModel.v`: ADVal with its flags, Var, Param, every operation of autodiff.{h,inl}, the index maps of SymMtx, SymTensor4Rank, BiSymTensor4Rank; an expression is a tree evaluated bottom-up | invariant of every operation: sizes, flags never hide a non-zero derivative, stored elements are the derivatives of the denoted function along lines (chain and product rules for first and second derivatives); induction over the tree; index maps by induction on the rows of the triangle |
| C51 | `TnModel.v`: packed storage of matrices and fourth rank tensors with bounds-checked loops for every N, the closed formulas for N = 3, Det by elimination | positions are injective up to symmetry (rows of the triangle), duplication counts turn stored sums into full sums by induction, loops by invariants on cells; N = 3 by ring/field on the elements; Det, products of symmetric matrices and iterator differences refuted by computed cases |
| C52 | `MechModel.v`: strains, stresses and invariants as list functions over the tensors of C51, the variables as values of C50 | every operation of C50 again, with the derivatives taken through six functions of another space (`chain`); invariants by product rules and ring; dS_to_dP element by element; refuted for a division by I1 |
| C53 | `AsmModel.v`: the four assembly loops of assembler.inl on sorted or unsorted sparse rows (lists of pairs), the index codes, the merge of a sorted local row into a sorted row; the cells come with their dof numbers, signs, ghost flags and element data; the schedule of threads is any permutation of the row updates | `entry` of a row is additive under every insertion; invariant over the schedule; sorted rows are determined by their entries, so the ordered mode is deterministic; template = assembly of zeros with a negative threshold; ghost rows of distinct spaces refuted |
| C54 | `FwModel.v`: densify (two arrays and in place), sparsify, copyCSC, fillTemplate on bounds-checked arrays, the computation on one element, the sparsity PrepareProblem keeps, calls through an array of result pointers, the combined functions and their work memory on top of the pool model of C14; a user function is any function of the numbers it finds | `FwSpec.v`: number j of the data is element (r, c); loop invariant from the end backwards: everything below the next number is still in place; composition with C14 for the memory; wrong conversions, combinations and copies refuted by witnesses |
| C55 | `MeshModel.v`: division of the processes and axes with unsigned arithmetic, creation of nodes and of six cells per cube with checked array accesses. `MeshSpec.v`: tetrahedron, convex combinations, volume. Weights of a point in any cell are values of one piecewise linear function per grid node, which gives conformity and disjointness; cover by the six inequalities. Refuted where the rounded up part per process runs over the end of an axis |
| C56 | `KinModel.v`: vector operations as loops over checked memories of the processes (aliasing is equality of vector numbers), MPI reductions as any tree and order of combination, the linear solver as a record of calls, parameters as calls of KINSOL setters, objects as pointers into a heap where releasing or using a dead address is undefined. `KinSpec.v`: whole vectors, sums, extrema, constraints, meaning of answers and parameters. Loop invariants, permutation invariance of reductions, induction over histories. Refuted: mean norms on several processes, matrix-vector product, answers after an inexact success, combined assembler, replaced matrix without Init, size of the scaling, move |
| C57 | `UtModel.v`: tags as numbers stored per element type; the cell loop as array code over any order of (cell, thread) with work memory of arbitrary contents and the tables of C43, threads summed, processes reduced in any order; nodes of the evaluation after reordering; the status string as checked memory. `UtSpec.v`: owned cells, schedules, quadrature sum of the mathematical integrand, value of digits. Loop invariants, permutation invariance; positions of dofs from C20, exactness from C43. Refuted: size of a loaded tag, evaluation points on cells stored in the negative order, status from 1000 iterations on |
| C58 | `DifModel.v`: gathering of the boundary data of a cell, local assembly by the fem3Dtet model of C32, the sparsity iteration of C07, the elimination of C09, global assembly by the model of C53; operators at quadrature points and contents of work memory are inputs. `DifSpec.v`: stiffness, mass and load as quadrature sums, Dirichlet dofs, Galerkin residual, energy, distance, processes. Local results from C32 and the elimination lemmas, equations from C53, minimum by expanding the quadratic functional. Refuted: Neumann data in spaces without face dofs; Dirichlet dofs of some compositions (from C07) |
| C59 | `SvdModel.v`: the eigensolver, sorting, Gram matrices, completion and the two branches of jacobiSVD as loops over checked column-major memory, atan2 defined from atan, machine epsilon and number of sweeps as parameters. `SvdSpec.v`: eigenpairs, singular vectors, rearrangement. A rotation is an orthogonal similarity that annihilates its element (invariant v^T A v); the off-diagonal sum loses the square of the element; expansion in the orthonormal basis gives residuals; selection sort by transpositions. Refuted by concrete decompositions: stagnation for n = 3, singular matrices, completion of (1, 0), matrices of size sqrt(eps) |
| C60 | `AmModel.v`: all helpers of adapt_mesh.cpp over checked 3 x 3 memory, the cell loop from dofs and face integrals to the stored absolute Hessian, the node loop from patches to the array; kEigenEps, machine epsilon and sweeps as parameters. `AmSpec.v`, `AmSpec2.v`, `AmSpec3.v`: quadratic forms, spectra, exact face integrals of quadratics, limits of eigenvalues, the weight of a face, geometric means | Invariant: every decomposition is an orthonormal basis with Rayleigh quotients, even when the solver fails; bounds follow by Parseval. The Hessian by the discrete divergence theorem for affine functions. Order independence of the mean by induction on permutations; that of the largest determinant refuted by two cells with equal determinants |
| C61 | `EvModel.v`: the evaluations of eval.inl and internalFem3DApply with a tensor (core.inl:520-575) on checked memory, for the library spaces; a composite space is a band matrix. `EvSpec.v`: the discrete function and operators by its partial derivatives, without the tables of the code | Composition of C28, C37 and the products of C31 and C32; old contents of the second and further elements and the factor 4 in the check of the stack variants refuted |
| C62 | `GwModel.v`: find_begin, the two searches and the carries of operator++ (global_enumerator.cpp:309-441) over a mesh given by the states of the local ids; iteratorByVector as an integer. `GwSpec.v`: the selected places and their order | The places are written as a nested list; each carry is shown to give the head of the rest of the list one level up. A mask with oriented dofs only and the >= of the vector iterator refuted |
| C63 | `CpModel.v`: the eleven copies of global_enumerator.cpp:6-225 on partial memory, over the walk of C62 and over the elements; unsigned char shifts modulo 256. `CpSpec.v`: cells of a dof by its position in the lists of EnumSpec | Loops are flattened to one list of copies whose targets belong to different dofs; C62 gives the visited dofs, C17 an enumeration. Shifts of 256 and more refuted |
| C64 | `MpModel.v`: createGlobalToLocalIDMap on the tags of a mesh with states and GlobalIDs, its use by setup and by the inverse queries. `MpSpec.v`: owned elements, first GlobalID, map that leads to the elements | Loop of writes with different targets, invariant over setups, C17 and C19 for the inverse query, C26 for the intervals; a changed mesh and two dimensions refuted |
| C65 | `LcModel.v`: generation of tag names, creation and deletion of tags, setters and setup of GlobEnumeration. `LcSpec.v`: documented orders, histories of a process | Injectivity of printed names, invariant over histories, C19 for the orders; tags of a loaded mesh, a base given by pointer, NOSPECIFIED refuted |
| C66 | `GdModel.v`: both reads of a value, gathering from one tag and from a tag per component, on the iteration of C07 and the places and signs of C08, C23. `GdSpec.v`: value of a dof by its class, place and sign, stored data | Exact geometric iteration (C07), writes at different places, blocks of components, conformity of places (C08); oriented and unoriented edges in a composition, components of a list of tags, a single variable in a list refuted |
| C67 | `TsModel.v`: symmetry masks of maps, areVarsTriviallySymmetric, the choice of the assembler. `TsSpec.v`: dofs at centres without orientation, maps with tables | Bits of the masks and classes of the dofs by induction on the tree; tables and gathering (C44, C66) do not look at the order; converse for maps with tables |
| C68 | `ValModel.v`: isValidIndex, isValid, at. `ValSpec.v`: numbers and places of dofs | From the layout of the map (C02, C03); witnesses for the test of the symmetry number (always false), for isValid without a map and for repetitions |
| C69 | `DitModel.v`: DofIterator with its lazily repaired record, 32-bit numbers. `DitSpec.v`: what a history shows by the position alone | invariant: a kept record is that of the position; induction on histories; witness for views |
| C42 | `SpModel.v`: operator== of the spaces | induction on the space; refuted for repetitions of different length |
| C43 | `QuadModel.v`, `QuadRules.v`: the macros and arrays of quadrature_formulas.cpp; `QuadTables.v`: the constants, transcribed as exact decimals by a script; GetPointWeight | integer check (fixed point, 120 bits) of the moments of all products of elementary symmetric polynomials at one point per orbit, evaluated by the kernel, its rounding errors bounded in a proof; `QuadSym.v`: every sum over the permutations of a monomial is a polynomial in the elementary symmetric ones (set partitions and the recurrence of power sums), then linearity and products for Cartesian polynomials; integrals of monomials by Coquelicot |
| C44 | index table of Assembler and locus index of ordering.inl | generic scatter-loop lemma over a bijection; witnesses where the table uses the inverse placement |
| C45 | reorder_mesh_function_data (`OrdModel.v` one element, `RmModel.v` the mesh: skipped dimensions, blocks, short arrays, several tags), getDOFLocusOnElement | placement on entity 0 composed with the renumbering; scatter lemma; skipped elements have dofs alone on their orbits (masks of C67); witnesses for oriented dofs |
| C46 | face_normal, tri_area, centroid, diameter, normal_direction over exact reals | cross product identities by ring, sign of the triple product, Jensen inequality for the diameter |
| C47 | householderQR on column-major memory, tolerance as a parameter | invariant A = H_0..H_{k-1} T, reflections preserve dot products, induction over columns |

## What is modelled and what is not

Modelled (paths under anifem++): fem/tetdofmap.h:373-413, fem/tetdofmap.cpp:29-30 (iterator over all dofs), 929-997 (views of views, their iteration); fem/tetdofmap.h:98-138, 302, 313-322, 433-437, fem/tetdofmap.cpp:921-927, 1005-1010, fem/tetdofmap.inl:32-39 (validity of indices, also of views); inmost_interface/global_enumerator.cpp:615-622, fem/tetdofmap.inl:77-86 and SymComponents, assembler.inl:879-886 (vertex order left out); inmost_interface/ordering.inl:220-353 (gathering; collection of the entities of the cell by assembler.inl not); inmost_interface/global_enumerator.cpp:456-560 (maps of elements; AssignGlobalID not), 803-811, 866-880 and global_enumerator.h:300-317, 391-427 (names, holder of enumerators); inmost_interface/global_enumerator.cpp:6-225 (copies; without ExchangeData and the checks under NDEBUG, source and target different); inmost_interface/global_enumerator.cpp:309-441 (walk by geometry; LastLocalID and NextLocalID of INMOST as documented); fem/operations/eval.inl (without the branch using Eigen, taken for more than 16 functions and 8 rows when built with it); utils/adapt_mesh.cpp (without Eigen, statistics, tag management and message passing); fem/geometry.h (jacobiSVD and its helpers, the branch without Eigen); autodiff/cauchy_strain_invariants.{h,inl}, autodiff/cauchy_strain_autodiff.h; fem/tetdofmap.{h,inl,cpp} (dof maps, masks, iteration, symmetry); fem/fem_memory.h (allocation, carving, DynMem); fem/fem_memory_parallel.h; utils/mesh_utils.cpp (GenerateParallelepiped, GenerateCube); utils/utils.{cpp,inl} (tags, integrals, evaluation points, status; assembly part of make_l2_project, solve_stationary_diffusion, make_laplace, without the linear solver); kinsol_interface/SUNNonlinearSolver.{h,cpp} (vector operations, linear solver, parameters, user functions, object life); fem/geometry.h (inverse, normals, areas, barycentric coordinates, Cholesky, LU, QR); fem/operations/core.inl (geometry, fused products, elemental matrices, expression application); fem/fem_space.{cpp,inl} (operators, equality of composite spaces); fem/operators.{h,inl} (dof coordinates, orders); fem/spaces/*.h; the Dirichlet routines of fem/operations/dc_on_dof.*; inmost_interface/global_enumerator.* and ordering.* (numbering, permutations, renumbering) and inmost_interface/assembler.inl (index table, element-by-element scatter of Assemble, AssembleMatrix, AssembleRHS, AssembleTemplate, the combined functions and the sparsity kept for them; not the collection of mesh data around them); inmost_interface/func_wrap.{h,inl} (sparsity views, conversions, work memory; not the printing of signatures) and the element computation of inmost_interface/elemental_assembler.cpp; autodiff/autodiff.{h,inl}; autodiff/physical_tensors* (storage, index maps and the operations of matrices for every size, all operations of the classes of size 3; not the conversions and products of fourth rank tensors of general size, Inv of general size, I/O).

Not modelled: rounding of doubles; the INMOST mesh library, MPI and the file system; template dispatch itself (each instance is a case of a match); KINSOL itself and the names, printed messages, timings and statistics of kinsol_interface; utils/* except adapt_mesh.cpp, the box meshes of mesh_utils.cpp and the parts of utils.cpp named above, fem/numeric_expr.* (included nowhere, does not compile); parse_interval_map, internal_lower_bound and internal_upper_bound of interval_map (do not compile when used); thin wrappers in fem/operations that only forward arguments. Properties without an entry in MANIFEST.json are not proved yet.

A line of seeded/LOG.jsonl with result "caught" means that the build of the edited copy stopped at the named theorem or at a lemma it depends on.

## Trusted base

Coq 8.16.1 kernel (and its `vm_compute` reduction machine), plus what `Print Assumptions` lists under each theorem. Only axioms of Coq's standard library reals and functional extensionality occur. The correspondence between source and model is by reading only: the code is not run here.

<!-- assumptions -->
Output of `Print Assumptions` for the theorems, grouped:

* closed under the global context (no axioms) — 292 theorems: C50_symmtx3, C33_directional, C63_vec_to_tag, C63_tag_to_vec, C63_vec_to_tags, C63_tags_to_vec, C63_vec_to_var, C63_vec_round_trip, C63_tag_to_tag, C63_var_to_var, C63_tag_to_tags_partial, C63_tags_to_tag_partial, C63_tag_to_var_partial, C63_var_to_tag_partial, C63_tags_round_trip_partial, C63_shift_refuted, C63_anitype, C01_counts_composition, C01_counts_repetition, C01_counts_by_entity, C01_counts_total, C01_counts_union_partial, C01_counts_union_refuted, C02_local_order_spec, C02_valid, C02_injective, C02_surjective, C02_type_on_tet, C03_lookup_inverse_partial, C03_lookup_rejects_invalid, C03_lookup_inverse_refuted, C03_lookup_wrong_value_refuted, C04_view_is_window, C04_view_membership, C04_components_cover, C04_components_disjoint, C05_product, C05_product_whenever_defined, C05_power, C05_merge_with_simplifications, C05_make_compressed, C05_push_back, C05_same_dofs_observable, C05_product_symmetry_refuted, C05_product_empty_refuted, C20_count, C20_descs_complete, C20_descs_distinct, C20_position, C20_position_injective, C20_description_partial, C20_description_var_partial, C20_first_oriented_refuted, C20_first_oriented_var_refuted, C17_anitype_in_range, C17_anitype_injective, C17_anitype_surjective, C17_anitype_inverse_partial, C17_tag_partial, C17_setup_oriented_refuted, C17_miniblocks_partial, C17_miniblocks_range_refuted, C17_miniblocks_refuted, C18_partition_partial, C18_empty_rank_refuted, C19_arrangement, C61_stack, C26_base_set, C26_built, C26_number, C26_at, C26_arrays_inverse, C26_arrays_size, C26_arrays_contains, C26_empty_refuted, C26_lower_bound_partial, C26_upper_bound_partial, C26_find, C26_moves, C26_lower_bound_end_refuted, C26_lower_bound_empty_range_refuted, C26_minus_refuted, C26_greater_equal_refuted, C26_increment_partial, C26_increment_empty_range_refuted, C54_densify, C54_densify_in_place, C54_sparsify, C54_round_trip, C54_mask, C54_copy_csc, C54_view, C54_view_make_as_sparse_refuted, C54_matrix, C54_vector, C54_independent, C54_prepared_partial, C54_prepared_refuted, C54_prepared_both_refuted, C54_system, C54_matrix_from_system_partial, C54_matrix_from_system_refuted, C54_vector_from_system_refuted, C54_ids, C54_memory_partial, C54_memory_refuted, C54_defragment_matrix, C54_defragment_vector_refuted, C54_copy, C54_assign_refuted, C07_iteration_geom_partial, C07_iteration_geom_repetition, C62_walk, C62_begin, C62_next, C62_everything, C62_no_variable, C62_mask_refuted, C62_vector_partial, C62_vector_order_refuted, C26_increasing, C26_size, C26_iteration, C26_back, C26_by_number, C26_by_value, C26_bounds, C26_order, C25_spec_deterministic, C25_insert_partial, C25_history_partial, C25_finite_history, C25_iterator_partial, C25_same_side_refuted, C25_same_side_left_refuted, C25_all_keys_refuted, C25_same_half_line_rejected, C25_two_half_lines_refuted, C56_linear_matrix, C56_verbosity, C56_user_functions, C56_assembler_refuted, C56_lifecycle_partial, C56_lifecycle_refuted, C56_scale_refuted, C56_move_refuted, C65_prefix_found, C65_names_partial, C65_tags, C65_destroy, C65_other_enumerators, C65_saved_refuted, C65_documented, C65_anitype_order, C65_simple, C65_base_partial, C65_base_refuted, C65_nospecified_refuted, C65_locked_refuted, C12_plain_sound, C12_plain_enough, C12_raw_sound, C12_raw_enough, C12_from_plain_sound, C12_from_plain_enough, C12_extend, C13_no_alias_partial, C13_sizes, C13_defragment, C13_any_order_refuted, C14_exclusive, C14_step, C15_once_partial, C15_balanced_partial, C15_large_refuted, C16_tet, C16_tet_enough, C16_tet_static, C16_apply, C16_apply_identity, C16_apply_enough, C55_processes, C55_fits, C64_maps, C64_same_mesh, C64_unknown_anitype_partial, C64_unknown_ordered_partial, C64_stale_refuted, C64_grown_refuted, C64_intervals_partial, C64_intervals_refuted, C19_in_range, C19_injective, C19_surjective, C19_order, C19_inverse_partial, C19_first_refuted, C19_tag_partial, C21_numbering, C21_order_free, C21_objects_partial, C21_objects_refuted, C23_edge, C23_edge_shared, C23_face_partial, C23_face_refuted, C45_renumber, C45_oriented_refuted, C45_mesh, C45_mesh_oriented_refuted, C42_refl, C42_repetition_refuted, C06_history, C06_set_closure, C06_unset_closure, C06_walk, C06_walk_dim, C06_empty_partial, C06_empty_refuted, C07_iteration_exact_partial, C07_iteration_no_composition, C07_iteration_composition, C07_iteration_geom_leaf_partial, C07_iteration_composition_refuted, C07_iteration_nested_refuted, C07_iteration_geom_refuted, C07_iteration_complement_refuted, C22_order_permutation, C22_sorts, C22_shared, C22_padded, C08_place, C08_bijection, C08_conform, C08_entity_image, C08_identity_partial, C08_composition_partial, C08_identity_refuted, C08_composition_refuted, C08_matrix_partial, C08_matrix_action_partial, C08_matrix_orbits_refuted, C08_matrix_vector_refuted, C08_representative, C08_stabilizer_partial, C08_stabilizer_refuted, C08_character, C44_table, C44_agrees_partial, C44_agrees_refuted, C44_shared_refuted, C51_access, C51_iterator, C51_iterator_difference_refuted, C67_left_out, C67_locus, C67_table, C67_computed, C67_needed, C57_tag_room, C57_tag_exact, C57_tag_fixed, C57_tag_create, C57_tag_load_partial, C57_tag_load_refuted, C57_status_partial, C57_status_refuted, C68_tet, C68_locus, C68_order_partial, C68_order_refuted, C68_sym_refuted, C68_is_valid_refuted, C68_at, C68_at_place_partial, C68_at_place_refuted, C68_view_place, C68_view_members, C68_view_order, C68_view_at_partial, C04_view_of_view, C04_view_other_component, C04_view_of_view_window, C04_sub_map, C04_view_sub, C69_history, C69_walk, C69_difference, C69_view_refuted, C07_view, C07_view_iteration_partial, C07_view_iteration_geom_partial
* `ClassicalDedekindReals.sig_forall_dec` — 21 theorems: C32_apply_memory_refuted, C09_entries, C09_symmetric, C09_matrix, C09_residual, C09_non_exists, C11_residual, C11_memory_refuted, C66_value_unique, C66_gather_partial, C66_available_partial, C66_tags_partial, C66_tags_available_partial, C66_tags_count, C66_tags_component_refuted, C66_tags_component_partial, C33_compaction, C34_inherited_div_refuted, C34_inherited_dudx_refuted, C42_equal_spaces_partial, C67_gather_partial
* `ClassicalDedekindReals.sig_forall_dec`, `ClassicalDedekindReals.sig_not_dec`, `Classical_Prop.classic`, `FunctionalExtensionality.functional_extensionality_dep` — 53 theorems: C50_derivatives_partial, C50_variables_partial, C50_tensor_variables_partial, C50_symmetric_partial, C50_reciprocal_refuted, C50_quotient_refuted, C50_hypot_one_refuted, C50_hypot_order_refuted, C50_pow_zero_refuted, C50_symmetric2_refuted, C60_bounds, C60_nodes, C60_zero, C60_degenerate_ignored, C60_max_det, C60_mean_order, C60_copies, C60_mean_bounds, C60_diagonal, C60_scaling, C60_abs_partial, C60_cell, C60_field, C60_boost, C60_small_patch, C60_max_det_order_refuted, C60_limits, C60_lifted, C60_mean_diagonal, C49_sum, C49_integral, C49_stack_refuted, C52_derivatives, C52_stress_partial, C52_reciprocal_refuted, C43_exact, C43_cartesian, C43_interior, C43_range, C43_symmetric, C43_rounding, C43_affine, C35_dual_library, C59_eigen_partial, C59_rotation, C59_eigen_small, C59_stagnation_refuted, C59_svd_partial, C59_svd_product, C59_svd_singular_refuted, C59_svd_completion_refuted, C59_svd_tiny_refuted, C57_polynomial
* `ClassicalDedekindReals.sig_forall_dec`, `ClassicalDedekindReals.sig_not_dec`, `FunctionalExtensionality.functional_extensionality_dep` — 65 theorems: C60_hessian, C37_differentiable, C37_operators, C37_library_base, C33_nedelec, C35_dofs, C35_dual, C35_dual_nodal, C35_coefficients, C35_independent, C36_sum_one, C36_gradients, C36_tables, C36_reproduce, C38_nodal_partial, C38_p3_refuted, C38_cr1_refuted, C38_p0_partial, C38_p0_refuted, C39_symbolic_partial, C39_p3_refuted, C39_vector_refuted, C29_solve, C29_lower_only, C29_inverse, C61_derivatives, C61_barycentric_partial, C61_barycentric, C61_fused_refuted, C61_points, C61_tensor_partial, C61_tensor_points, C61_stack_refuted, C61_polynomial, C49_degree, C49_derivatives, C49_points, C49_at_partial, C49_at_refuted, C46_face_normal, C46_area, C46_direction, C46_diameter, C46_diameter_attained, C41_dof, C41_vector, C41_complex, C41_union, C41_by_dofs, C41_vector_by_dofs, C41_dual, C41_union_dual_partial, C41_union_usable, C41_union_refuted, C41_region_memory_refuted, C48_solve, C48_projection, C56_sums, C56_wrms_partial, C56_wrms_refuted, C52_invariants, C52_volume, C47_qr, C47_exact, C59_completion_partial
* `ClassicalDedekindReals.sig_forall_dec`, `FunctionalExtensionality.functional_extensionality_dep` — 116 theorems: C50_symmetric_variable_refuted, C60_weights, C60_voigt, C53_assemble, C53_schedule, C53_deterministic, C53_modes, C53_status, C53_matrix, C53_rhs, C53_template, C53_template_then_assemble, C53_distributed, C53_distinct_spaces_refuted, C37_derivative_unique, C37_geometry, C38_unimplemented, C31_transposed, C31_product_partial, C31_product_refuted, C32_form_partial, C32_form_fusive, C32_apply_partial, C32_apply_fused_refuted, C32_selection_refuted, C33_normal, C30_permuted, C30_solve_partial, C30_small_partial, C30_solve_refuted, C30_inverse_shared_refuted, C58_cell_partial, C58_diffusion_partial, C58_minimum_partial, C58_laplace_partial, C58_laplace_constant_partial, C58_projection, C58_best_approximation, C58_reproduction, C58_neumann_refuted, C58_composition_refuted, C09_solutions, C10_order, C10_again, C10_solutions, C11_solutions_partial, C11_one_direction, C11_homogeneous, C11_rhs, C11_matrix, C11_extra_column, C11_extra_row, C11_two_directions_refuted, C61_unique, C61_tensor_band, C49_tensors, C49_stack, C66_shared_partial, C66_gather_refuted, C66_tags_leaf_refuted, C27_inverse, C28_barycentric, C28_barycentric_psi, C28_element, C28_points, C46_closed, C46_centroid, C41_memory, C33_compaction_order, C48_edge_points_refuted, C48_face_points_refuted, C56_elementwise, C56_extrema, C56_inverse_test, C56_constraints, C56_combination, C56_combination_refuted, C56_matvec_refuted, C56_linear_result_partial, C56_linear_result_refuted, C56_parameters, C52_strain, C52_stress_elements, C55_tetrahedra_partial, C55_cover_partial, C55_once_partial, C55_conforming_partial, C55_volume_partial, C55_cube_partial, C55_box_refuted, C24_nodes, C24_orientation, C24_idempotent, C40_operator_matrix, C40_repeated, C40_composed, C40_united, C40_two_operators, C34_from_gradient, C40_two_operators_refuted, C59_sort, C51_dot, C51_matrix, C51_conversion, C51_symmetric3, C51_matrix3, C51_tensor3, C51_symmetric_product_partial, C51_symmetric_product_refuted, C51_det_scale_refuted, C51_det_symmetric_refuted, C57_integral_local, C57_integral, C57_template, C57_evaluation_partial, C57_evaluation_refuted
<!-- end -->
