{"id": "C01", "title": "Tetrahedron dof counts are additive", "statement": "For every dof map built by the public constructors (uniform map, k-fold vector map, ordered composition, in any nesting), NumDofOnTet() is the sum over the six geometric types of NumDofOnTet(type), each NumDofOnTet(type) is NumDof(type) times the number of mesh entities of that type in a tetrahedron, and vector / composition maps multiply / add the counts of their parts.", "quantifier": "all finite nestings of dof maps with arbitrary per-type dof counts and repetition factors", "why_tests_cant": "The composition tree is unbounded; tests try a handful of standard spaces.", "anchors": ["anifem++/fem/tetdofmap.h: BaseDofMap, UniteDofMap, VectorDofMap, ComplexDofMap", "anifem++/fem/tetdofmap.cpp: NumDofOnTet, NumDof"]}
{"id": "C02", "title": "Local dof classification is valid and faithful", "statement": "For every dof map and every local index i < NumDofOnTet(), LocalOrderOnTet(i) returns a geometric type, an entity number that exists in a tetrahedron, a position below NumDof(type), and gid = i; two different indices never get the same (type, entity, position); every admissible (type, entity, position) is produced by some index.", "quantifier": "all nestings of dof maps, all local indices", "why_tests_cant": "Injectivity and surjectivity quantify over all pairs of indices of unboundedly many composed maps.", "anchors": ["anifem++/fem/tetdofmap.cpp: LocalOrderOnTet, TypeOnTet", "anifem++/fem/tetdofmap.inl: VectorDofMapC, ComplexDofMapC"]}
{"id": "C03", "title": "Dof index lookup inverts classification", "statement": "For every dof map, every index i < NumDofOnTet(): TetDofID applied to the (type, entity, position) that LocalOrderOnTet(i) reports gives back i.", "quantifier": "all nestings of dof maps, all local indices", "why_tests_cant": "A round trip over every nesting depth and repetition factor cannot be exhausted by examples; the vector map's lookup is wrong for some maps and right for others.", "anchors": ["anifem++/fem/tetdofmap.cpp: UniteDofMap::TetDofID, VectorDofMap::TetDofID, ComplexDofMap::TetDofID"]}
{"id": "C04", "title": "Component views address exactly their slice of the parent", "statement": "For every dof map and every component path, the nested view's local indices 0..n-1 correspond, in order, to a contiguous slice of the parent's local indices starting at the reported shift; classification through the view agrees with the component's own classification except for the shifted id; the slices of the immediate components tile the parent's index range without gap or overlap.", "quantifier": "all nestings, all component paths, all indices", "why_tests_cant": "Paths of every depth in trees of every shape.", "anchors": ["anifem++/fem/tetdofmap.h: NestedDofMapView, NestedDofMap, BaseDofMap::GetNestedComponent", "anifem++/fem/tetdofmap.cpp: VectorDofMap::GetNestedComponent, ComplexDofMap::GetNestedComponent, ComponentID"]}
{"id": "C05", "title": "Algebra of dof maps preserves order and content", "statement": "d1*d2, d^k, pow, merge (with or without simplification) and PushBack produce a map whose list of local dofs, read in index order, is the concatenation (repetition) of the operands' lists; compressing equal consecutive components changes neither the number nor the classification of dofs.", "quantifier": "all operand maps", "why_tests_cant": "Unbounded operand trees; flattening and merging special cases interact.", "anchors": ["anifem++/fem/tetdofmap.cpp: operator*, operator^, pow, merge, merge_with_simplifications, ComplexDofMap::makeCompressed, PushBack"]}
{"id": "C06", "title": "Geometric sparsity masks behave as sets of mesh entities", "statement": "On a tetrahedron-entity mask, set/unset/contains/&,|,^ act as insertion, removal, membership and Boolean set operations on the 15 entities; set with closure adds exactly the sub-entities of the given entity; iterating a mask visits each contained entity exactly once in increasing order and nothing else.", "quantifier": "all masks, all entities, all finite histories of mask operations", "why_tests_cant": "2^15 masks times unbounded operation histories.", "anchors": ["anifem++/fem/tetdofmap.h: TetGeomSparsity", "anifem++/fem/tetdofmap.cpp: TetGeomSparsity::set, unset, nextPos, beginPos", "anifem++/fem/tetdofmap.inl: operator&, operator|, operator^, operator~"]}
{"id": "C07", "title": "Sparsity-driven iteration visits exactly the selected dofs", "statement": "Iterating a dof map over a geometric mask yields each local index whose entity lies in the mask exactly once, yields nothing else, and terminates.", "quantifier": "all dof maps, all masks", "why_tests_cant": "Exactness of an iterator over every map shape and every mask.", "anchors": ["anifem++/fem/tetdofmap.cpp: BeginByGeomSparsity, IncrementByGeomSparsity, EndByGeomSparsity"]}
{"id": "C08", "title": "Symmetric dof placement is a group action", "statement": "Renumbering the vertices of an edge, face or cell permutes the dofs attached to it: for each symmetry class the induced map on dof positions is a bijection of the positions of that class, the identity renumbering changes nothing, and renumbering twice equals renumbering by the composed permutation.", "quantifier": "all symmetry classes of edges, faces and cells, all vertex permutations, all dof counts", "why_tests_cant": "The laws quantify over pairs of permutations and arbitrary multiplicities of classes.", "anchors": ["anifem++/fem/tetdofmap.h: DofSymmetries", "anifem++/fem/tetdofmap.inl: DofSymmetries::index_on_reorderd_elem, S4"]}
{"id": "C09", "title": "Imposing one Dirichlet value keeps the solution set", "statement": "After applyDir(A,F,k,bc) a vector x solves A'x=F' iff x_k = bc and x solves every other original equation; row and column k become those of the identity; all other entries of A are unchanged; a symmetric A stays symmetric.", "quantifier": "all sizes n, all matrices and right-hand sides over the reals, all k < n, all bc", "why_tests_cant": "Equality of solution sets for all matrices of all sizes.", "anchors": ["anifem++/fem/operations/dc_on_dof.h: applyDir, applyDirMatrix, applyDirResidual"]}
{"id": "C10", "title": "Dirichlet conditions on several dofs commute", "statement": "Imposing prescribed values on any list of pairwise distinct dofs gives the same matrix and right-hand side in whatever order they are imposed, imposing a condition again changes nothing, and the final solution set is that of the free equations with all prescribed values substituted.", "quantifier": "all sizes, all lists of distinct dofs, all permutations", "why_tests_cant": "Unbounded lists and their permutations.", "anchors": ["anifem++/fem/operations/dc_on_dof.h: applyDir"]}
{"id": "C11", "title": "Constraining a vector dof along given directions", "statement": "applyVectorDir on a group of dofs with prescribed values along given orthonormal directions yields a system whose solutions satisfy each prescribed projection and whose remaining equations are the original ones restricted to the unconstrained directions.", "quantifier": "all sizes, all groups of up to three dofs, all direction sets", "why_tests_cant": "A claim on all matrices and all directions; fails only when at least two directions are given.", "anchors": ["anifem++/fem/operations/dc_on_dof.inl: setVectorDirMtx, setVectorDirRhs, applyVectorDir"]}
{"id": "C12", "title": "Raw-memory carving is always sufficient, aligned and disjoint", "statement": "If a raw buffer has at least enoughRawSize bytes then, whatever the address it starts at, allocateFromRaw places the double, integer and descriptor blocks at correctly aligned addresses, entirely inside the buffer and without overlap, with the requested lengths.", "quantifier": "all requested sizes, all base addresses, all alignments of the element types", "why_tests_cant": "Depends on the run-time address of the buffer modulo every alignment.", "anchors": ["anifem++/fem/fem_memory.h: PlainMemory::allocateFromRaw, enoughRawSize, PlainMemoryX::allocateFromRaw, allocateFromPlainMemory, enoughPlainMemory"]}
{"id": "C13", "title": "Pooled work memory never aliases live blocks", "statement": "For every history of alloc and release on the chunked pool, two blocks that are simultaneously live never overlap and each lies inside its chunk with the requested size.", "quantifier": "all operation histories, all request sizes", "why_tests_cant": "Aliasing needs a particular interleaving of allocs and non-LIFO releases.", "anchors": ["anifem++/fem/fem_memory.h: DynMem::alloc, DynMem::clearChunk, DynMem::defragment, MemPart"]}
{"id": "C14", "title": "Parallel pool hands out each slot to one owner", "statement": "For every serialised history of alloc, alloc_range, release, release_range and clear, a slot is never given to two owners at once, every slot is either owned or reusable, and a range allocation returns the requested number of distinct slots.", "quantifier": "all operation histories and all interleavings at the granularity of the mutex", "why_tests_cant": "All schedules of all thread counts.", "anchors": ["anifem++/fem/fem_memory_parallel.h: DynMemParallel::alloc, alloc_range, release, release_range"]}
{"id": "C15", "title": "Thread partition covers every iteration exactly once", "statement": "ParallelFor over niters iterations with n threads executes every iteration index exactly once, each worker gets a contiguous range and the range sizes differ by at most one.", "quantifier": "all niters and all n >= 1", "why_tests_cant": "Quantifies over all pairs (niters, n) with remainder cases.", "anchors": ["anifem++/fem/mutex_type.h: ParallelFor<STD>::perform"]}
{"id": "C16", "title": "Element work-memory layout is in bounds and disjoint", "statement": "The work arrays carved for assembling an elemental matrix from a buffer of the size returned by the memory-requirement query do not overlap and stay inside the buffer for every number of quadrature points, fused tetrahedra and space sizes.", "quantifier": "all q, f, space sizes and operator requirements", "why_tests_cant": "Unbounded size parameters.", "anchors": ["anifem++/fem/operations/core.inl: internalFem3Dtet_memory_requirements, fem3Dtet_init, fem3D_memory_requirements_base, fem3D_init_animem_from_plain_memory"]}
{"id": "C17", "title": "Global numbering of dofs is a bijection", "statement": "For each enumeration type, the map from (variable, component, entity type, entity global id, position) to the global index is injective, its image is a gap-free range, and the inverse query returns the original description.", "quantifier": "all mesh sizes, all numbers of variables and dof counts", "why_tests_cant": "Injectivity over all meshes; fails for one of the enumeration types.", "anchors": ["anifem++/inmost_interface/global_enumerator.cpp: SimpleEnumerator::operator()"]}
{"id": "C18", "title": "Ranks own a partition of the matrix rows", "statement": "The row intervals [BegInd, EndInd) computed from per-rank element counts are consecutive, pairwise disjoint and cover [0, MatrSize).", "quantifier": "all numbers of ranks and all distributions of elements over ranks, including ranks owning no elements of some dimension", "why_tests_cant": "All distributions over all rank counts; only fails on ranks with no elements of a dimension.", "anchors": ["anifem++/inmost_interface/global_enumerator.cpp: IGlobEnumeration::setupIGlobEnumeration"]}
{"id": "C19", "title": "Ordered enumerator arrangement is invertible", "statement": "For the enumerator with user-chosen arrangement, getArrangement returns what setArrangment stored, the index map is a bijection from dof descriptions to the rank's interval and the inverse query undoes it.", "quantifier": "all permutations of the arrangement keys, all dof counts and mesh sizes", "why_tests_cant": "All permutations and unbounded sizes.", "anchors": ["anifem++/inmost_interface/global_enumerator.cpp: OrderedEnumerator::setArrangment, getArrangement, setup, index_byMap"]}
{"id": "C20", "title": "Position of a dof within an entity identifies it uniquely", "statement": "The per-entity dof number (variable-major, then geometric type, then position) and the full description (variable, type, position) determine each other.", "quantifier": "all variable lists, all dof counts", "why_tests_cant": "Quantifies over all dof maps; fails when a type has no unoriented dofs.", "anchors": ["anifem++/inmost_interface/global_enumerator.cpp: getFullIndex", "anifem++/inmost_interface/global_enumerator.h: GetElemDofId, GetSingleVarDofId"]}
{"id": "C21", "title": "Canonical edge and face numbering for any vertex order", "statement": "For every assignment of distinct global ids to the four vertices and every order in which a mesh lists the edges and faces of a cell, the collected connectivity lists edges as 01,02,03,12,13,23 and faces as 012,123,230,301 of the chosen vertex order.", "quantifier": "all vertex orders and all orders in which edges and faces are reported", "why_tests_cant": "All 24 vertex orders times 6! edge orders times 4! face orders and all id values.", "anchors": ["anifem++/inmost_interface/ordering.inl: collectConnectivityInfo"]}
{"id": "C22", "title": "Vertex sorting permutation is consistent", "statement": "createOrderPermutation returns the permutation that sorts the four vertex ids, so that two cells sharing a face or edge order its vertices identically.", "quantifier": "all id tuples", "why_tests_cant": "All integers and all pairs of neighbouring cells.", "anchors": ["anifem++/inmost_interface/ordering.inl: createOrderPermutation"]}
{"id": "C23", "title": "Orientation sign of shared edges and faces is consistent", "statement": "The orientation sign reported for an edge (face) equals the parity of the permutation that sorts its own vertices' ids, so two cells sharing the entity agree up to how each traverses it.", "quantifier": "all vertex ids, all edges and faces", "why_tests_cant": "All orders of ids; fails for faces because an unrelated vertex is compared.", "anchors": ["anifem++/inmost_interface/ordering.inl: isPositivePermutationOrient"]}
{"id": "C24", "title": "Positive-orientation reordering preserves the cell", "statement": "Reordering the nodes of a tetrahedron returns the same four nodes, with non-negative signed volume.", "quantifier": "all node coordinates", "why_tests_cant": "All real coordinates.", "anchors": ["anifem++/inmost_interface/ordering.inl: reorderNodesOnTetrahedron"]}
{"id": "C25", "title": "Interval map insertion is a partial-function extension", "statement": "Inserting [s,e)->v succeeds iff it contradicts no stored interval; after success lookup returns v on [s,e) and is unchanged elsewhere; after failure lookup is unchanged everywhere; the stored intervals stay sorted and disjoint.", "quantifier": "all histories of insertions, all keys", "why_tests_cant": "Unbounded histories; one boundary state makes stored keys unreachable.", "anchors": ["anifem++/interval/interval_map.inl: interval_map::insert, internal_find, at, contains"]}
{"id": "C26", "title": "Interval enumerators are order-isomorphic to an index range", "statement": "The enumerator over a set of intervals maps position n to the n-th smallest element, the reverse lookup inverts it, contains() is membership, and iteration visits the elements in increasing order.", "quantifier": "all sorted interval lists, all positions and values", "why_tests_cant": "All interval sets.", "anchors": ["anifem++/interval/interval_enum.inl", "anifem++/interval/ext_array_enum.inl"]}
{"id": "C27", "title": "3x3 inverse and determinant", "statement": "inverse3x3 returns det(A) and, when det(A) != 0, a matrix that is both a left and a right inverse of A.", "quantifier": "all real 3x3 matrices", "why_tests_cant": "All reals.", "anchors": ["anifem++/fem/geometry.h: inverse3x3"]}
{"id": "C28", "title": "Barycentric coordinates reproduce the point", "statement": "For every non-degenerate tetrahedron and every point X, the computed barycentric coordinates sum to 1 and the weighted vertex sum is X; the quadrature points computed from barycentric coordinates are the corresponding affine combinations.", "quantifier": "all non-degenerate tetrahedra, all points", "why_tests_cant": "All reals.", "anchors": ["anifem++/fem/operations/core.inl: getBaryCoord, internalFem3DtetGeomInit_Tet, internalFem3DtetGeomInit_XYG"]}
{"id": "C29", "title": "Packed Cholesky solves symmetric positive definite systems", "statement": "cholesky_solve returns x with Ax=b for every symmetric positive definite A given in packed lower form and touches only the packed storage.", "quantifier": "all sizes N, all SPD matrices, all right-hand sides", "why_tests_cant": "All sizes and matrices.", "anchors": ["anifem++/fem/geometry.h: cholesky_solve, cholesky_inverse"]}
{"id": "C30", "title": "Fully pivoted LU solves nonsingular systems", "statement": "LU_solve after fullPivLU returns x with Ax=b for every nonsingular A.", "quantifier": "all sizes, all nonsingular matrices", "why_tests_cant": "Wrong only when the column permutation has order above two.", "anchors": ["anifem++/fem/geometry.h: fullPivLU, LU_solve"]}
{"id": "C31", "title": "Fused small matrix products", "statement": "For every number of fused blocks, the fused transpose product and the fused product store, block by block, exactly A_r^T B_r and A_r B_r, independent of the previous contents of the result memory.", "quantifier": "all sizes, all block counts, all prior contents of the output", "why_tests_cant": "All sizes and stale memory contents; fails only with more than one block.", "anchors": ["anifem++/fem/operations/core.inl: fusive_AT_mul_B, fusive_A_mul_B"]}
{"id": "C32", "title": "Elemental bilinear form is the quadrature sum", "statement": "The elemental matrix computed for operators OpA, OpB and tensor D equals, entry by entry, the weighted sum over quadrature points of D applied to OpA(phi_i) paired with OpB(phi_j), for every partition of the operator matrices into diagonal blocks.", "quantifier": "all sizes, all block partitions, all operators and tensors", "why_tests_cant": "All block structures and sizes.", "anchors": ["anifem++/fem/operations/core.inl: internalFem3Dtet, internalFem3DApply"]}
{"id": "C33", "title": "In-place contractions never read overwritten data", "statement": "The in-place rewrites (normal contraction on faces, directional derivative extraction, Nedelec gradient expansion, sub-matrix compaction) give the same result as computing from a copy of the input.", "quantifier": "all sizes and all contents", "why_tests_cant": "Aliasing at every size.", "anchors": ["anifem++/fem/operations/core.h: ProcessNormal", "anifem++/fem/operators.h: OperatorDUDXHelper", "anifem++/fem/spaces/nedelec_0.h: Operator<GRAD>", "anifem++/fem/fem_space.cpp: interpolateOnRegion"]}
{"id": "C34", "title": "Divergence and curl agree with the gradient", "statement": "For every vector-valued space built by repetition or composition, DIV is the trace of GRAD and CURL its antisymmetric part in the usual sign convention, at every quadrature point and for every basis function.", "quantifier": "all base spaces, all sizes, all fusion counts", "why_tests_cant": "All gradients values and sizes.", "anchors": ["anifem++/fem/fem_space.cpp: applyDIV, applyCURL", "anifem++/fem/operators.h: Operator<DIV>, Operator<CURL>"]}
{"id": "C35", "title": "Finite element basis is dual to its degrees of freedom", "statement": "For each of the spaces P0,P1,P2,P3,B2,B4,CR1,RT0,ND0 and every non-degenerate tetrahedron, interpolating basis function j onto dof i gives 1 if i=j and 0 otherwise.", "quantifier": "all non-degenerate tetrahedra, all dof pairs", "why_tests_cant": "All real coordinates.", "anchors": ["anifem++/fem/spaces/*.h: Operator<IDEN>::apply, Dof::interpolate"]}
{"id": "C36", "title": "Lagrange spaces reproduce polynomials and sum to one", "statement": "The P1, P2, P3 basis functions sum to one at every point and their gradients sum to zero; interpolation of a polynomial of the space's degree is exact at every point.", "quantifier": "all points, all tetrahedra, all polynomials of the degree", "why_tests_cant": "All reals and polynomials.", "anchors": ["anifem++/fem/spaces/poly_1.h", "anifem++/fem/spaces/poly_2.h", "anifem++/fem/spaces/poly_3.h"]}
{"id": "C37", "title": "GRAD, DIV and CURL tables are the true derivatives", "statement": "For each space, the values produced for GRAD (DIV, CURL, DUDX) are the analytic derivatives, in physical coordinates, of the functions produced for IDEN.", "quantifier": "all non-degenerate tetrahedra, all points", "why_tests_cant": "Derivative is a limit over all points.", "anchors": ["anifem++/fem/spaces/*.h: Operator<GRAD>, Operator<DIV>, Operator<CURL>"]}
{"id": "C38", "title": "Reported dof coordinates are where the dof is evaluated", "statement": "For each nodal space the coordinate reported for dof i is the point at which interpolation samples the function for dof i.", "quantifier": "all tetrahedra, all dofs", "why_tests_cant": "All coordinates; wrong for two P3 face dofs and for Crouzeix-Raviart.", "anchors": ["anifem++/fem/operators.h: DOF_coord", "anifem++/fem/spaces/*.h: Dof::interpolate"]}
{"id": "C39", "title": "Symbolic and numeric bases coincide", "statement": "The symbolic basis expressions of a space evaluate, at every point, to the values produced numerically for IDEN, dof by dof.", "quantifier": "all tetrahedra and points, all dofs", "why_tests_cant": "Function equality over all points.", "anchors": ["anifem++/fem/spaces/*.h: Basis::eval", "anifem++/fem/fem_space.cpp: evalBasisFunctions"]}
{"id": "C40", "title": "Composite spaces assemble block operators in order", "statement": "For compositions and repetitions of spaces, the operator matrix is block diagonal with the components' matrices as blocks in component order; for unions it is the row-aligned concatenation of the components' matrices.", "quantifier": "all component lists, all sizes and fusion counts", "why_tests_cant": "Unbounded component lists.", "anchors": ["anifem++/fem/fem_space.inl: ComplexFemSpace::applyOP_internal, UnionFemSpace::applyOP_internal", "anifem++/fem/fem_space.cpp: realloc_rep_mtx"]}
{"id": "C41", "title": "Composite interpolation touches only the requested dof", "statement": "Interpolating a vector-valued function on dof i of a composite space writes only entry i and equals interpolating the corresponding component of the function on the component space's dof.", "quantifier": "all component lists, all functions, all dofs, all fusion counts", "why_tests_cant": "All functions and compositions.", "anchors": ["anifem++/fem/fem_space.cpp: VectorFemSpace::interpolateOnDOF, ComplexFemSpace::interpolateOnDOF", "anifem++/fem/operators.h: Dof<FemVec>, Dof<FemCom>"]}
{"id": "C42", "title": "Space equality implies identical operators", "statement": "If two spaces compare equal then they have the same dimension, dof count and operator matrices.", "quantifier": "all pairs of spaces", "why_tests_cant": "All pairs of nested spaces; fails for repetitions of different length.", "anchors": ["anifem++/fem/fem_space.cpp: VectorFemSpace::operator=="]}
{"id": "C43", "title": "Quadrature formulas integrate polynomials of the stated degree", "statement": "For each tabulated formula on the tetrahedron (triangle, segment) and every polynomial of total degree up to the stated order, the formula's value on every simplex equals the integral mean up to the rounding of the tabulated constants.", "quantifier": "all tabulated formulas, all polynomials of the degree, all simplices", "why_tests_cant": "Infinite-dimensional over coefficient choices and simplices.", "anchors": ["anifem++/fem/quadrature_formulas.h", "anifem++/fem/quadrature_formulas.cpp"]}
{"id": "C44", "title": "Assembly and data access address the same dof", "statement": "For every dof map, every cell and every numbering of its vertices, the global number that assembly uses for local dof i is the number of the entity position from which data access reads (and to which it writes) local dof i; two cells that share an edge or face therefore use the same number for the same geometric dof.", "quantifier": "all dof maps with symmetry information, all vertex identifiers of the cells, all local dofs", "why_tests_cant": "the built-in spaces exercise only classes on which the placement is its own inverse; the property ranges over all symmetry classes, all 24 vertex orders and all pairs of neighbouring cells", "anchors": ["anifem++/inmost_interface/assembler.inl: AssemblerT::fill_assemble_templates", "anifem++/inmost_interface/ordering.inl: getDOFLocus, createOrderPermutation", "anifem++/fem/tetdofmap.inl: DofSymmetries::index_on_reorderd_elem"]}
{"id": "C45", "title": "Renumbering vertices keeps the discrete function", "statement": "When the global identifiers of mesh vertices are replaced and the stored dofs of a function are renumbered accordingly, every local dof of every cell, addressed with the new identifiers, has the same value (with orientation sign, for oriented dofs) as before with the old identifiers.", "quantifier": "all dof maps with symmetry information, all old and new vertex identifiers, all mesh elements, all stored values, any order in which the mesh lists the nodes of the element", "why_tests_cant": "all orders of old and new identifiers (24 x 24 per cell) for all symmetry classes; oriented dofs are absent from the usual Lagrange tests", "anchors": ["anifem++/inmost_interface/ordering.inl: reorder_mesh_function_data, getDOFLocusOnElement"]}
{"id": "C46", "title": "Normals, areas and diameters describe the tetrahedron", "statement": "For every nondegenerate tetrahedron the normal computed for a face has length one, is orthogonal to the face and points away from the opposite vertex; the reported area is the area of the face; the area-weighted normals of the four faces sum to zero; the centroid is the mean of the vertices; and the diameter is the largest distance between any two points of the tetrahedron.", "quantifier": "all nondegenerate vertex positions, both orientations of the cell, all faces, all pairs of points of the cell", "why_tests_cant": "real coordinates and both orientations; the maximal distance ranges over infinitely many pairs of points", "anchors": ["anifem++/fem/geometry.h: tri_area, face_normal, centroid, tetra_diameter, normal_direction, normal"]}
{"id": "C47", "title": "Householder QR factorises every tall matrix", "statement": "For every N x M matrix with N >= M the QR routine returns an orthogonal Q and an upper triangular R such that every column of A - QR has Euclidean length at most the rounding tolerance of the routine (zero when the tolerance is zero), whatever the memory contained before, and never leaves the documented work memory.", "quantifier": "all sizes, all matrices including rank-deficient ones, all initial memory contents", "why_tests_cant": "all sizes and all real matrices, including those on which a column is skipped", "anchors": ["anifem++/fem/geometry.h: householderQR"]}
{"id": "C48", "title": "Interpolation on a region sets exactly the dofs of the region to the projection", "statement": "Interpolating a function on an edge, face or cell of a tetrahedron changes exactly the coefficients that belong to this region (with its boundary) and sets them so that the error is orthogonal, with the quadrature of the region, to the basis functions of the region; it does not depend on the previous contents of the work memory, and the reported amount of work memory is enough.", "quantifier": "all spaces, regions, functions, all sets of dofs, all sizes, all previous contents of memory", "why_tests_cant": "All spaces, functions and memory contents; tests run with fresh zero memory, which hides dependence on old contents.", "anchors": ["anifem++/fem/fem_space.cpp: BaseFemSpace::interpolateOnRegion, interpolateOnRegion_mem_req"]}
{"id": "C49", "title": "Elemental matrices are the integrals of the operators of the basis functions", "statement": "For every tetrahedron, every pair of library spaces and operators and every tensor D, the function for the cell, a face (with or without the outer unit normal), an edge or a vertex fills the elemental matrix with the integrals of (D OpA phi_i) . OpB psi_j over exactly this region, up to the rounding of the tabulated formulas, whenever the integrand is a polynomial of a degree not larger than the order; it changes nothing else in the matrix and does not depend on what was in the work memory. The variants with points given by the caller give the weighted sums over these points. The memory reserved on the stack is enough.", "quantifier": "all non-degenerate tetrahedra, spaces, operators, tensors, regions, orders, numbers of fused elements, contents of memory", "why_tests_cant": "All tetrahedra, faces, edges, orders, operators and tensors; a wrong vertex of a face or a scaling error shows only for some of them", "anchors": ["anifem++/fem/operations/int_tet.inl: fem3Dtet", "anifem++/fem/operations/int_face.inl: fem3Dface, fem3DfaceN", "anifem++/fem/operations/int_edge.inl: fem3Dedge", "anifem++/fem/operations/int_pnt.inl: fem3Dnode, fem3DpntL, fem3DpntX", "anifem++/fem/fem_memory.h: MemoryLegacy"]}
{"id": "C50", "title": "Automatic differentiation carries the true gradient and Hessian", "statement": "For every expression built from variables, parameters and values by the overloaded operations (arithmetic, powers, elementary functions, atan2, hypot, abs, sign, min, max, make_shell), at every point where the function it denotes is smooth, operator() gives its value, D() its derivatives and DD() its second derivatives, both mixed orders included, up to the requested order, whatever the storage set, and the derivatives skipped because of the State flags are zero. DD()(i,j) and DD()(i,j,k,l) address the element of these variables.", "quantifier": "all expressions, points, numbers of variables, storage sets, orders of derivatives, states of the operands", "why_tests_cant": "All expressions and points; a derivative term that is dropped for one combination of State flags shows only in that combination", "anchors": ["anifem++/autodiff/autodiff.h: ADVal, Var, Param, ADState, VarPool, unary functions", "anifem++/autodiff/autodiff.inl: operator+,-,*,/, pow, EvalPow, sq, atan2, hypot, min, max, unary_operation", "anifem++/autodiff/physical_tensors.h: SymMtx, SymTensor4Rank, BiSymTensor4Rank index maps", "anifem++/autodiff/physical_tensors_3d.inl: SymMtx<3>, BiSymTensor4Rank<3>"]}
{"id": "C51", "title": "Physical tensors store each element once and their operations are those of matrices and tensors", "statement": "For PhysMtx<N>, SymMtx<N>, Tensor4Rank<N>, SymTensor4Rank<N> and BiSymTensor4Rank<N> of every size N: an element that is written is read back through exactly the indices that denote it by symmetry, iterators name the element they stand at, and Dot, SquareFrobNorm, Trace, Mul, Dot(f,s), products, Transpose, Sym, Identity, Adj, Inv, Det, TensorSquare, TensorSymMul2 and the conversions give the values of the corresponding sums over all indices, in the general classes and in the specialisations for N = 3.", "quantifier": "all sizes N, all tensors, vectors and index tuples", "why_tests_cant": "All sizes and all real entries; packed storage counts each element by the number of its indices, and one wrong multiplicity shows only for tensors with that element non-zero", "anchors": ["anifem++/autodiff/physical_tensors.h: PhysMtx, SymMtx, Tensor4Rank, SymTensor4Rank, BiSymTensor4Rank", "anifem++/autodiff/physical_tensors.inl: Trace, Dot, Mul, Sym, Det, operator*, TensorSquare, TensorSymMul2, tensor_convert", "anifem++/autodiff/physical_tensors_3d.inl: SymMtx<3>, PhysMtx<3>, BiSymTensor4Rank<3>"]}
{"id": "C52", "title": "Strains, invariants and stresses of hyperelastic energies are consistent", "statement": "F_to_E and grU_to_E return E = (F^T F - I)/2 and their variation functions its derivative; the variables I0fs, I1, I2, I3, J, I4fs, I5fs have the value of the invariant of C = I + 2E (J = |det F|) and its true first and second derivatives with respect to E; and for every energy W written as an expression of these variables, evaluated with automatic differentiation at a displacement gradient, S_to_P of the gradient and dS_to_dP of the gradient and Hessian are the first and second derivatives of W as a function of the deformation gradient F, along all variations of F.", "quantifier": "all displacement gradients (with det F <> 0 when J occurs), all energies built from the operations of the library, all fibre vectors, all pairs of variations", "why_tests_cant": "All energies and all deformations; finite differences at some points cannot settle an identity between polynomials, and a lost second derivative only slows Newton iterations", "anchors": ["anifem++/autodiff/cauchy_strain_invariants.h: S_to_P, C_I1, C_I2, C_I3, C_J, C_I4fs, C_I5fs", "anifem++/autodiff/cauchy_strain_invariants.inl: F_to_E, grU_to_E, F_and_dF_to_dE, grU_and_dgrU_to_dE, dS_to_dP", "anifem++/autodiff/cauchy_strain_autodiff.h: I0fs, I1, I2, I3, J, I4fs, I5fs"]}
{"id": "C53", "title": "Assembly adds exactly the sum of the signed element contributions", "statement": "Assemble, AssembleMatrix and AssembleRHS add to entry (r, c) of the matrix the sum over all cells of s_i s_j A_ij over the local pairs (i, j) whose global numbers are (r, c), whose row is owned by the process, that are in the sparsity mask and exceed drop_val in absolute value, and to entry r of the right-hand side the sum of s_i F_i; nothing else changes and the stored positions are the old ones, the diagonal and the positions touched. The result does not depend on the insertion mode (unordered, ordered, positions present) nor on the order in which threads perform the row updates; -1 is returned exactly when a number that would be used is not finite, and no access leaves the arrays. AssembleTemplate adds the positions only, and they suffice for a later insertion that needs present positions. With several processes each owned row comes out as in the matrix of the whole problem, provided every cell with an owned dof is stored.", "quantifier": "all meshes, element matrices, masks, signs, initial matrices, options, all interleavings of the row updates, all distributions", "why_tests_cant": "All interleavings and all meshes: a lost update or an entry dropped by the merge of sorted rows occurs only for particular overlaps of patterns and schedules", "anchors": ["anifem++/inmost_interface/assembler.inl: Assemble, AssembleMatrix, AssembleRHS, AssembleTemplate, fill_assemble_templates, set_elements_on_matrix_diagonal, encode, decode", "anifem++/inmost_interface/assembler.h: AssmOpts"]}
{"id": "C54", "title": "Sparse elemental functions give the element matrix and vector their sparsity describes", "statement": "For every compressed-column sparsity with increasing rows in a column, densify (also in place) produces the dense column-major matrix with the fill value where nothing is stored and leaves the memory behind it alone; sparsify is its inverse on the stored numbers; fillTemplate is true exactly at the stored elements; copyCSC describes the same matrix. On every element the matrix, the mask and the vector handed to the insertion depend only on what the function computes, not on what the arrays held before, and an element outside the mask is zero. The assembler hands every element the sparsity of the function's results. A function for both made from a matrix and a right-hand side function fills each with its own result, a matrix or right-hand side taken from a function for both is that of the function, every thread has its own work memory of each function and all of it is returned, and copies of a function keep its work sizes.", "quantifier": "all sizes, sparsities, values and previous contents of the arrays, all numbers of threads", "why_tests_cant": "All sparsities: an in-place expansion that overwrites a number before moving it shows only for particular patterns, and a combination of functions or memory requirements that nobody tried aborts or gives wrong numbers", "anchors": ["anifem++/inmost_interface/func_wrap.h: MatSparsityView, MatSparsity, MatFuncWrapDynamic", "anifem++/inmost_interface/func_wrap.inl: densify, sparsify, copyCSC, fillTemplate, operator=", "anifem++/inmost_interface/elemental_assembler.cpp: compute, densify_result, update", "anifem++/inmost_interface/assembler.h: SystemFromMatRhsFWrap, MatFromSystemFWrap, RhsFromSystemFWrap", "anifem++/inmost_interface/assembler.inl: PrepareProblem, SystemFromMatRhsFWrap, RhsFromSystemFWrap"]}
{"id": "C55", "title": "The generated box meshes are conforming tetrahedral meshes of the box for any number of processes", "statement": "GenerateParallelepiped and GenerateCube: the processes form a grid of which every process has exactly one position. Every process creates tetrahedra with four different nodes, all in the box. The tetrahedra of all processes together cover exactly the box; a point inside one of them is in no other, so no cell is created twice or overlaps another; cells that share a point share the face, edge or node it lies on; and all cells have the volume of a grid step divided by six.", "quantifier": "all boxes, numbers of steps per axis, numbers of processes and points of the box", "why_tests_cant": "All numbers of steps and processes: a distribution that runs over the end of an axis shows only for particular pairs, and conformity is about every pair of neighbouring cells, also across processes", "anchors": ["anifem++/utils/mesh_utils.cpp: CreateNWTetElements, GenerateParallelepiped, GenerateCube"]}
{"id": "C56", "title": "The vectors, linear solver and parameters handed to the nonlinear solver behave as KINSOL requires", "statement": "SUNNonlinearSolver and its KINSOL operations: vector operations compute element by element from the values before the call, also in place, and change no other vector; dot products, norms, minima and maxima, tests and constraint checks give the value for the whole distributed vector on every process; the matrix-vector product stores A x; a linear solve uses the matrix of the last setup and its answer tells truthfully whether the tolerance was reached or the residual reduced; a parameter set by name reaches exactly its KINSOL setting; failures of user functions on one process are seen by all; objects can be set, initialised, solved, moved and destroyed in any order without use of released memory.", "quantifier": "all vectors, sizes, distributions over processes, orders of reduction, values, parameter strings and histories of calls", "why_tests_cant": "Wrong results show only with several processes, aliased arguments, unusual answers of the inner solver or particular orders of calls; the values and histories are unbounded", "anchors": ["anifem++/kinsol_interface/SUNNonlinearSolver.cpp: N_V*_Inmost, SUNMatMatvec_Inmost, SUNLinSolSetup_Inmost, SUNLinSolSolve_Inmost, SUNNonlinearSolver::SetParameter, Init, Solve, assmRHS_interface, assmMAT_interface", "anifem++/kinsol_interface/SUNNonlinearSolver.h: SUNNonlinearSolver"]}
{"id": "C57", "title": "Storage tags have room for every dof, and integrals over the mesh are the quadrature sums over all cells", "statement": "createFemVarTag creates a tag in which every dof of the variable has its place on its element (exactly as many numbers as dofs with a variable size, the largest number with a fixed size), and create_or_load_problem_tag returns such a tag; integrate_vector_func and integrate_scalar_func return, on every process, the sum over all cells of the mesh of volume times the quadrature sum of the integrand at the points of the cell, whatever the number of threads, the order of the iterations and the distribution of the mesh, hence the integral of piecewise polynomials up to the precision of the formula; a variable evaluated inside of an integrand is evaluated at the point of the integrand; the status line shows the number of iterations.", "quantifier": "all dof maps, elements, meshes, distributions, schedules, thread numbers, orders 0..20, integrands, initial contents of work memory and iteration counts", "why_tests_cant": "A cell counted twice or not at all shows only for particular distributions and schedules, a missing place only for particular combinations of spaces, and orientations of stored cells are arbitrary", "anchors": ["anifem++/utils/utils.cpp: createFemVarTag, create_or_load_problem_tag, integrate_vector_func, eval_op_var_by_barycentric_points, print_linear_solver_status", "anifem++/utils/utils.inl: integrate_vector_func, integrate_scalar_func", "anifem++/inmost_interface/ordering.h: GeomMaskToInmostElementType, DofTNumDofsToInmostNumDofs"]}
{"id": "C58", "title": "The ready-made problems assemble systems whose solutions are the Galerkin solutions", "statement": "solve_stationary_diffusion assembles, on any number of processes, a system whose solutions are exactly the vectors with the values of dirichlet_func at the dofs on Dirichlet elements that satisfy at the other dofs the Galerkin equations of the given tensor, source and Neumann flux; for a symmetric nonnegative tensor these are the minimisers of the energy. make_laplace does so for the Laplace operator, and constants are solutions with constant data. The solutions of the system of make_l2_project are the best approximations of the given function in the quadrature norm, and functions of the space are reproduced.", "quantifier": "all spaces (dof maps), meshes, numberings and orientations of dofs, tensors, data functions, sets of Dirichlet elements, quadrature tables, distributions over processes, and contents of work memory", "why_tests_cant": "Convergence tests use a few smooth solutions, spaces and boundary conditions; a term dropped for one kind of space or one kind of boundary face changes the equation solved without any error", "anchors": ["anifem++/utils/utils.cpp: solve_stationary_diffusion, make_laplace, make_l2_project", "anifem++/fem/tetdofmap.inl: applyDirByDofs"]}
{"id": "C59", "title": "Eigenvectors and singular vectors of dense matrices are orthonormal and reproduce the matrix", "statement": "For every symmetric matrix the Jacobi eigensolver writes orthonormal vectors, and when it reports success they are eigenvectors up to the tolerance, sorted together with their values. jacobiSVD reports success for every matrix it can decompose; then U and V are orthogonal, the values are nonnegative and decreasing, A v_j = s_j u_j and U S V^T is A; the values do not depend on whether U or V is requested.", "quantifier": "all sizes, all symmetric matrices (eigensolver), all rectangular matrices including singular ones (SVD), all contents of the result and work memory, every number of sweeps", "why_tests_cant": "Tests decompose a few random regular matrices; rank deficiency, sizes, scales and coincidences with the unit vectors used for completion are not covered", "anchors": ["anifem++/fem/geometry.h: jacobiSVD, detail::jacobi_symmetric_eigen, sort_eigen_desc, complete_orthonormal_cols, gram_ata, gram_aat (without WITH_EIGEN)"]}
{"id": "C60", "title": "Node metrics built from a field are symmetric, within the requested bounds, and follow the second derivatives", "statement": "construct_metrics writes at every node a symmetric positive definite metric whose eigenvalues lie between M_lambda_min and M_lambda_max with a ratio of at most max(M_lambda_max_rel, 1), whatever the field, mesh and strategy, and leaves other entries of the array alone. Second derivatives of quadratic fields are recovered exactly on every cell; |H| has the same eigenvectors; weights of the distribution heuristics are nonnegative and sum to |(B d, d)|; degenerate cells are retried once and ignored as long as another cell is usable. Strategy 0 takes the cell with the largest determinant, strategy 1 the geometric mean; neither depends on the order of the cells around the node. A zero field gives the isotropic fallback.", "quantifier": "all scalar fields and dof values, all meshes and node patches, both strategies, all sane traits, every outcome of the eigensolver, every order of cells", "why_tests_cant": "Bounds must hold for every field, including degenerate, zero and badly scaled ones and failures of the eigensolver; a dropped cell or a dependence on the order of the cells shows only for particular patches", "anchors": ["anifem++/utils/adapt_mesh.cpp: construct_metrics and its helpers (without WITH_EIGEN)", "anifem++/utils/adapt_mesh.h: MetricsConstructTraits"]}
{"id": "C61", "title": "Evaluating an operator of a discrete function at points returns the operator of that function", "statement": "fem3DapplyL and fem3DapplyX return, for every library space and operator, Op(u)(x) at every given point of every given tetrahedron, where u is the function with the given degrees of freedom; with a tensor they return D(x) Op(u)(x). Barycentric and Cartesian points agree, previous contents of the output array do not matter, cells behind the result are not changed, and the variants with memory on the stack never leave that memory when their check passes. Degrees of freedom interpolated from a polynomial of the degree of the space evaluate to that polynomial.", "quantifier": "all library spaces and operators, non-degenerate tetrahedra, numbers of fused elements and points, degrees of freedom, tensors, contents of output and work memory", "why_tests_cant": "Stale contents of the arrays and the limits of the stack memory show only for particular histories and counts; values must agree with the derivatives of the function for all points, elements and coefficients", "anchors": ["anifem++/fem/operations/eval.inl: fem3DapplyL, fem3DapplyX, __internal_check_fem3DapplyL_static", "anifem++/fem/operations/core.inl: internalFem3DApply, fusive_A_mul_B"]}
{"id": "C62", "title": "A loop over the degrees of freedom of a mesh visits every selected one exactly once", "statement": "The loop for (it = beginByGeom(slice); it != endByGeom(); ++it) ends and visits exactly the degrees of freedom of the elements the process owns that lie in the slice (variable, component, position, geometric type mask, local element id), each once, ordered by dimension, element, type, variable, component and position; without arguments it visits all degrees of freedom of all owned elements. Positions of the iterator over the vector of unknowns are ordered like their indices.", "quantifier": "all lists of variables, meshes with deleted and ghost elements, slices and positions of the loop", "why_tests_cant": "The successor is computed by a cascade of six carries; a missed or repeated place shows only for particular combinations of deleted and ghost elements, absent types and fixed components of the slice", "anchors": ["anifem++/inmost_interface/global_enumerator.cpp: iteratorByGeom::find_begin, _choose_var, _choose_element, operator++", "anifem++/inmost_interface/global_enumerator.h: iteratorByVector, SliceIndex, beginByGeom"]}
{"id": "C63", "title": "Copies of degrees of freedom between vectors and tags keep every value", "statement": "CopyByEnumeration and CopyVarByEnumeration copy the value of every degree of freedom between its unknown in a vector, its cell in a tag for all variables and its cell in the tag of its variable, and change nothing else; a vector copied to tags and back, and a common tag split by variables and joined again, are unchanged.", "quantifier": "all lists of variables, meshes with deleted and ghost elements, enumerations of the unknowns, contents of vectors and tags", "why_tests_cant": "A wrong cell shows only for particular combinations of variables, oriented and unoriented degrees of freedom, element states and sizes", "anchors": ["anifem++/inmost_interface/global_enumerator.cpp: CopyByEnumeration, CopyVarByEnumeration"]}
{"id": "C64", "title": "An unknown leads back to the element of the process", "statement": "After setup of an enumerator, the map from GlobalIDs to local elements leads from the number of every owned degree of freedom to its element, also when several enumerators are set up on the mesh and when the mesh changes between setups; the list of existing elements by intervals gives the local IDs of its dimension.", "quantifier": "all meshes with deleted and ghost elements and distinct GlobalIDs, lists of variables, sequences of setups, changes of the mesh", "why_tests_cant": "The maps are stored on the mesh and reused; wrong elements appear only for histories of setups and changes of the mesh", "anchors": ["anifem++/inmost_interface/global_enumerator.cpp: createGlobalToLocalIDMap, SimpleEnumerator::setup, OrderedEnumerator::setup"]}
{"id": "C65", "title": "Setting up an enumerator never clashes and gives the chosen order", "statement": "setup() finds a free name for the tags of an enumerator, adds its tags only and the destructor removes them only; a GlobEnumeration numbers degrees of freedom in the documented order of its assembling type or by the base enumerator given by the user, and refuses NOSPECIFIED.", "quantifier": "all histories of setups and destructions, contents of the mesh, assembling types and sequences of setters", "why_tests_cant": "Clashes depend on the history of the process and on tags stored in the mesh; the order is a statement about all pairs of degrees of freedom", "anchors": ["anifem++/inmost_interface/global_enumerator.cpp: generateUniqueTagNamePrefix, GlobEnumeration::setup", "anifem++/inmost_interface/global_enumerator.h: GlobEnumeration, TagOwned"]}
{"id": "C66", "title": "Gathering brings every stored value to its place", "statement": "GatherDataOnElement writes at place i of the output the value stored for the i-th degree of freedom of the variable or component on the cell, with the sign of its orientation, and nothing else; with OnlyIfDataAvailable it leaves the places of values that are not stored; with a tag per component it writes the components one after another; neighbouring cells gather the same value for the same degree of freedom.", "quantifier": "all maps of degrees of freedom, components, orders of the vertices, contents of the tags and output arrays", "why_tests_cant": "The place of a value depends on the tree of the map, the symmetry class and all 24 orders of the vertices", "anchors": ["anifem++/inmost_interface/ordering.inl: GatherDataOnElement, takeElementDOF, takeElementDOFifAvailable, getDOFLocus", "anifem++/inmost_interface/assembler.inl: GatherDataOnElement"]}
{"id": "C67", "title": "The order of the vertices is left out only when it has no influence", "statement": "If the assembler skips the computation of the order of the vertices of a cell, because the variables are reported as trivially symmetric and nothing is oriented, then index tables and gathered values are the same as with the true order; if some degree of freedom depends on the order, it is computed.", "quantifier": "all maps of degrees of freedom, vertex numbers and contents of tags", "why_tests_cant": "The shortcut depends on masks of all parts of the map; a missed class gives wrong numbers only on cells with certain vertex orders", "anchors": ["anifem++/inmost_interface/global_enumerator.cpp: areVarsTriviallySymmetric", "anifem++/fem/tetdofmap.inl: DofSymmetries::GetSymMask_by_geom_num", "anifem++/inmost_interface/assembler.inl: comp_node_perm"]}
{"id": "C68", "title": "Indices accepted as valid are exactly those of degrees of freedom", "statement": "isValidIndex answers true exactly for the numbers and the places of degrees of freedom of the map, and for the records handed out by it, with and without the symmetry number; at() returns the degree of freedom for a valid index and throws out_of_range for any other.", "quantifier": "all maps of degrees of freedom (repetitions and compositions of any depth) and all indices", "why_tests_cant": "Maps nest without bound and every index outside has to be rejected; tests try a few maps and indices", "anchors": ["anifem++/fem/tetdofmap.h: BaseDofMap::isValidIndex, BaseDofMap::at, LocGeomOrder::isValid, LocalOrder::isValid", "anifem++/fem/tetdofmap.inl: BaseDofMap::isValidIndex"]}
{"id": "C69", "title": "The iterator over all degrees of freedom shows the one at its position", "statement": "begin() to end() of a map visits all degrees of freedom in the order of their numbers; after any sequence of steps, jumps and accesses the iterator shows the record of the degree of freedom at its position, and differences and comparisons of iterators are those of the positions. The same holds for a view, with the records of the enclosing map.", "quantifier": "all maps of degrees of freedom and views, all histories of moves and accesses", "why_tests_cant": "The iterator keeps a record that is repaired lazily; whether it is stale depends on the whole history of moves and accesses", "anchors": ["anifem++/fem/tetdofmap.h: DofIterator", "anifem++/fem/tetdofmap.cpp: BaseDofMap::begin, BaseDofMap::end"]}
