{"id": "C01", "title": "Core grouping is a balanced ordered partition", "statement": "GROUP_CORES(member_num, group_num) returns groups that partition the ranks 0..SIZE-1 into consecutive non-empty blocks whose sizes differ by at most one; each leader is the smallest rank of its block, 'my leader' of a rank is the leader of the block containing it, and when group_num is derived from member_num no group has more than max(1,member_num) cores.", "quantifier": "every communicator size SIZE>=1, every integer member_num, every admissible group_num, every rank", "why_tests_cant": "A test fixes one communicator size; the claim is about all sizes and all divisors/remainders.", "anchors": ["root/config/group.py:GROUP_CORES"]}
{"id": "C02", "title": "Reduction tree delivers every contribution to rank 0 exactly once", "statement": "Following the send/recv steps that TREE(2) yields on every rank (as do.gather_M_to_core does), each send is matched by exactly one recv of the named peer with the same tag in the same round, no rank sends after it has already sent, and the combination held by rank 0 at the end contains the contribution of every rank exactly once, in rank order.", "quantifier": "every communicator size SIZE>=1 and every associative combination", "why_tests_cant": "The number of rounds and the odd-rank leftovers depend on SIZE; tests run on a handful of core counts.", "anchors": ["root/config/tree.py:TREE", "root/config/tree.py:___parse_senders_and_receivers_factor2___", "tools/miLinearAlgebra/dataStructures/globalMatrix/do.py:gather_M_to_core"]}
{"id": "C03", "title": "CHAINING runs the method in rank order without deadlock", "statement": "When every rank calls CHAINING(method), under every interleaving of the ranks and of message delivery the executions of method are totally ordered by rank (rank r+1 starts only after rank r has finished), no reachable state is stuck before all ranks have returned, and every rank runs method exactly once.", "quantifier": "every SIZE>=1 and every interleaving of rank steps", "why_tests_cant": "Schedules are chosen by the MPI runtime; a test observes one of them.", "anchors": ["root/config/chaining.py:CHAINING"]}
{"id": "C04", "title": "DISPATCHING executes every task exactly once and terminates", "statement": "For every list of tasks none of which compares equal to the stop message, under every interleaving, each task is executed exactly once (by the master if SIZE<=2, by some slave otherwise), and every execution that cannot continue has all ranks at the final barrier (no deadlock) with all results recorded.", "quantifier": "every SIZE, every task list, every interleaving of master, slaves and message deliveries", "why_tests_cant": "Which slave finishes first is decided at run time; the schedule space is unbounded.", "anchors": ["root/config/dispatching.py:DISPATCHING"]}
{"id": "C05", "title": "DISPATCHING accepts arbitrary task inputs", "statement": "DISPATCHING executes every task of the list whatever the task value is. (Expected to fail: a task equal to the string 'stop waiting for new tasks' is swallowed by a slave, which leaves the loop, and the master waits forever for its answer.)", "quantifier": "every task list including the reserved string", "why_tests_cant": "Tests do not use the reserved string as data.", "anchors": ["root/config/dispatching.py:DISPATCHING"]}
{"id": "C06", "title": "CHECK_SAME_IN_ALL_CORES passes exactly when all ranks agree", "statement": "CHECK_SAME_IN_ALL_CORES(*args) returns on every rank iff the arguments of all ranks are equal, otherwise it raises on every rank and the reported cores are exactly those whose arguments differ from core 0.", "quantifier": "every SIZE and every per-rank argument tuple", "why_tests_cant": "Needs all vectors of per-rank arguments.", "anchors": ["root/config/check_same_in_all_cores.py:CHECK_SAME_IN_ALL_CORES"]}
{"id": "C07", "title": "Local vector assembler sums (or overwrites) per dof", "statement": "VectorAssembler(gathering)(data,'replace') puts at every dof the last value written there in dictionary order, (data,'add') puts there the sum over keys of the values gathered to it, for gatherings whose per-key index lists have no repetition; the constructor accepts exactly the gatherings whose dofs are 0..n-1.", "quantifier": "every gathering dictionary, every data dictionary", "why_tests_cant": "Overlap patterns of dofs are unbounded.", "anchors": ["components/assemblers.py:VectorAssembler", "components/assemblers.py"]}
{"id": "C08", "title": "Assembling after distributing is the identity", "statement": "For every vector v and every accepted gathering, distributing v to the keys and assembling with 'replace' gives back v; assembling with 'add' gives v multiplied by the dof multiplicities.", "quantifier": "every gathering and vector", "why_tests_cant": "Universal round-trip law.", "anchors": ["components/distributors.py", "components/assemblers.py:VectorAssembler"]}
{"id": "C09", "title": "Local matrix assembler gives the same matrix in every output format", "statement": "MatrixAssembler(...)(data, format) represents the same matrix sum_k P_k^T M_k Q_k whichever sparse format is requested. (Expected to fail for 'csc', where the transposed structure is returned.)", "quantifier": "every pair of gatherings, every block data, every format", "why_tests_cant": "Needs asymmetric instances of every shape.", "anchors": ["components/assemblers.py:MatrixAssembler"]}
{"id": "C10", "title": "Offset ('silly') chaining of gathering matrices is injective and gap free", "statement": "If gathering matrices G_1..G_n number their dofs 0..N_j-1, the chained numbering of 'silly' type sends (j,dof) to a distinct number, covers exactly 0..sum N_j-1, and the local vector of each element is the concatenation of the shifted local vectors in order.", "quantifier": "every number of chained matrices, every element set, every numbering", "why_tests_cant": "Universal in the number of blocks and numbering contents.", "anchors": ["tools/elementwiseCache/gathering/regular/chain_matrix/main.py:Chain_Gathering_Matrix"]}
{"id": "C11", "title": "'sequent' chaining is a renumbering of the offset chaining", "statement": "The 'sequent' chained numbering is obtained from the 'silly' one by a bijection of 0..N-1 (two local dofs coincide globally in one iff they coincide in the other), whatever the distribution of elements over the cores.", "quantifier": "every collection of gathering matrices, every element distribution", "why_tests_cant": "The renumbering is computed by a multi-core relay depending on the distribution.", "anchors": ["tools/elementwiseCache/gathering/regular/chain_matrix/main.py:Chain_Gathering_Matrix"]}
{"id": "C12", "title": "Chained numbering lookups agree with exhaustive search", "statement": "do.find on a chained gathering matrix returns for a global dof exactly the (elements, local indices) at which that number occurs in the chained local vectors.", "quantifier": "every chained gathering matrix and every global dof", "why_tests_cant": "Range-based search shortcuts are only right under invariants on all inputs.", "anchors": ["tools/elementwiseCache/gathering/regular/chain_matrix/do/find.py", "tools/elementwiseCache/gathering/regular/matrix/do/find.py"]}
{"id": "C13", "title": "Cached chained gathering matrix is the one asked for", "statement": "GatheringMatrixChaining returns, for every history of requests, a chained matrix built from the requested matrices with the requested method. (Expected to fail in general: the cache key concatenates stamps.)", "quantifier": "every history of chaining requests", "why_tests_cant": "Key collisions need adversarial histories.", "anchors": ["tools/elementwiseCache/gathering/chain.py:GatheringMatrixChaining"]}
{"id": "C14", "title": "Element-wise cached objects return what their generator returns", "statement": "For an element-wise cached matrix whose key generator is sound (equal keys imply equal data, '>NC<' means recompute), every sequence of accesses M[i] returns exactly the data generator's value for i, i.e. caching is unobservable.", "quantifier": "every access history, every generator, every sound key generator", "why_tests_cant": "Histories are unbounded.", "anchors": ["tools/elementwiseCache/dataStructures/objects/sparseMatrix/main.py:EWC_SparseMatrix"]}
{"id": "C15", "title": "Operators on element-wise cached matrices are element-wise and cache-transparent", "statement": "(A+B)[i], (A-B)[i], (A@B)[i], (c*A)[i], (-A)[i], A.T[i] equal the corresponding operation on A[i], B[i] for every access history.", "quantifier": "every pair of element-wise cached matrices with sound keys, every access history", "why_tests_cant": "The composed cache keys must be sound for all operand keys.", "anchors": ["tools/elementwiseCache/dataStructures/objects/sparseMatrix/main.py", "tools/elementwiseCache/dataStructures/objects/sparseMatrix/helpers"]}
{"id": "C16", "title": "Sum and difference of element-wise cached vectors follow both operands", "statement": "(v1+v2)[i] == v1[i]+v2[i] and (v1-v2)[i] == v1[i]-v2[i] for every access history, also when v2 changes between accesses. (Expected to fail: the key of v2 is ignored.)", "quantifier": "every pair of element-wise cached column vectors, every history of accesses and updates", "why_tests_cant": "Needs a constant v1, a changing v2 and two accesses.", "anchors": ["tools/elementwiseCache/dataStructures/objects/columnVector/helpers/add.py", "tools/elementwiseCache/dataStructures/objects/columnVector/helpers/sub.py"]}
{"id": "C17", "title": "Customizations act on the returned local matrix only", "statement": "M[i] equals the generator's local matrix with the registered customizations of element i applied in registration order; the cached raw data never changes, so clearing the customizations restores M[i].", "quantifier": "every sequence of customizations and accesses", "why_tests_cant": "Unbounded operation sequences.", "anchors": ["tools/elementwiseCache/dataStructures/objects/sparseMatrix/customize.py", "tools/elementwiseCache/dataStructures/objects/sparseMatrix/main.py:__getitem__"]}
{"id": "C18", "title": "Assembly is the scatter-sum of the local matrices", "statement": "The assembled global matrix, summed over cores, has entry (I,J) equal to the sum over all elements e and local indices i,j with G_row(e,i)=I, G_col(e,j)=J of M[e][i,j]; it does not depend on how elements are distributed over cores, on the assembling routine nor on the internal flushing of the coordinate lists.", "quantifier": "every mesh, gathering pair, element distribution, routine and flush threshold", "why_tests_cant": "Universal over sizes and distributions.", "anchors": ["tools/elementwiseCache/dataStructures/objects/sparseMatrix/assembler.py"]}
{"id": "C19", "title": "Assembled column vector is the scatter-sum of the local vectors", "statement": "The assembled vector has entry I equal to the sum over elements and local indices gathered to I of the local entries, independent of the distribution of elements over cores.", "quantifier": "every mesh, gathering matrix and element distribution", "why_tests_cant": "Universal over sizes and distributions.", "anchors": ["tools/elementwiseCache/dataStructures/objects/columnVector/assembler.py"]}
{"id": "C20", "title": "Assembled row customizations do what they say globally", "statement": "After customize.clear_global_row(r) the assembled row r is zero, after customize.identify_global_row(r) it is the unit row e_r, after set_assembled_M_ij_to(i,j,v) the assembled entry (i,j) equals v; every other assembled entry is unchanged.", "quantifier": "every gathering matrix, element distribution, matrix and row", "why_tests_cant": "Rows are shared by an arbitrary number of elements and cores.", "anchors": ["tools/elementwiseCache/dataStructures/objects/sparseMatrix/customize.py"]}
{"id": "C21", "title": "Assembled vector customization sets one global entry", "statement": "After customize.set_assembled_V_i_to(i,v) the assembled vector has entry i equal to v and all other entries unchanged.", "quantifier": "every gathering matrix, vector, dof and distribution", "why_tests_cant": "Dofs are shared by an arbitrary number of elements.", "anchors": ["tools/elementwiseCache/dataStructures/objects/columnVector/customize.py:set_assembled_V_i_to"]}
{"id": "C22", "title": "set_unknown_to pins the unknown in every solution", "statement": "After EWC linear system customize.set_unknown_to(r,v) every solution x of the assembled system satisfies x[r]=v and all other equations are unchanged.", "quantifier": "every linear system, every r, v", "why_tests_cant": "Universal over systems.", "anchors": ["tools/miLinearAlgebra/linearSystem/customize.py:set_unknown_to", "tools/elementwiseCache/dataStructures/objects/sparseMatrix/customize.py:identify_global_row"]}
{"id": "C23", "title": "Block matrices and block vectors assemble consistently with the chained numbering", "statement": "bmat(blocks)[e] is the block matrix of the local blocks, concatenate(blocks)[e] the stacked local vectors, and with the chained gathering matrices the assembled block system equals the block system of the individually assembled blocks.", "quantifier": "every block structure (None blocks included), every gathering matrices", "why_tests_cant": "Universal over block shapes.", "anchors": ["tools/elementwiseCache/dataStructures/operators/bmat", "tools/elementwiseCache/dataStructures/operators/concatenate"]}
{"id": "C24", "title": "Row splitting for tree gathering loses nothing", "statement": "The row cut points produced when a large sparse matrix is split for sending are strictly increasing from 0 to the number of rows, so the pieces partition the rows and stacking them restores the matrix.", "quantifier": "every row pointer array and every threshold", "why_tests_cant": "Universal over sparsity patterns.", "anchors": ["tools/miLinearAlgebra/dataStructures/globalMatrix/helpers/split_A.py", "tools/miLinearAlgebra/dataStructures/globalMatrix/do.py"]}
{"id": "C25", "title": "Distributed matrix product equals the global product", "statement": "If A=sum_r A_r and B=sum_r B_r are stored as per-core contributions, the product of two GlobalMatrix objects computed by broadcasting represents A\u00b7B, for every distribution.", "quantifier": "every number of cores and every distribution of the contributions", "why_tests_cant": "Universal over distributions.", "anchors": ["tools/miLinearAlgebra/dataStructures/globalMatrix/main.py"]}
{"id": "C26", "title": "Global matrix times vector is the matrix-vector product", "statement": "A @ v for a GlobalMatrix A and a (distributed) vector v represents A\u00b7v whatever the sparse storage of A. (Expected to fail for csc storage: the list of non-empty columns is always computed empty.)", "quantifier": "every storage type, distribution and vector", "why_tests_cant": "Depends on storage and distribution.", "anchors": ["tools/miLinearAlgebra/dataStructures/globalMatrix/main.py:nonempty_columns", "tools/miLinearAlgebra/dataStructures/globalMatrix/main.py:___PRIVATE_distribute_vector___"]}
{"id": "C27", "title": "Claimed distribution pattern is verified", "statement": "do.claim_distribution_pattern('row'/'column') succeeds only if the cores own disjoint rows/columns. (Expected to fail for columns: the check returns a one-element tuple, always true.)", "quantifier": "every distribution of entries", "why_tests_cant": "Needs a wrongly distributed matrix.", "anchors": ["tools/miLinearAlgebra/dataStructures/globalMatrix/main.py:check_col_major", "tools/miLinearAlgebra/dataStructures/globalMatrix/do.py:claim_distribution_pattern"]}
{"id": "C28", "title": "Gathering a distributed vector returns the whole vector", "statement": "DistributedVector.do.gather_V_to_core(core) returns, on the requested core, the full vector sum of the parts.", "quantifier": "every distribution with at most one owner per entry, every target core", "why_tests_cant": "Depends on distribution and target core.", "anchors": ["tools/miLinearAlgebra/dataStructures/vectors/distributed/do.py:gather_V_to_core"]}
{"id": "C29", "title": "Iterative solver stop criterion: return code semantics", "statement": "The iteration always stops after at most maxiter outer iterations, exactly maxiter when maxiter is given as a string; info==0 is returned only if the residual is below atol. (The last clause is expected to fail: the relative-progress criterion also returns 0.)", "quantifier": "every residual history and every parameter set", "why_tests_cant": "Residual histories are unbounded.", "anchors": ["tools/miLinearAlgebra/solvers/regular/GMRES/helpers/components/stop_criterion.py"]}
{"id": "C30", "title": "BiCGSTAB keeps its shadow residual and reports the true residual", "statement": "In exact arithmetic the recursively updated residual of BiCGSTAB equals b-Ax at every iteration, and the shadow residual stays the initial residual. (The last clause is expected to fail: the receive buffer is reused.)", "quantifier": "every matrix, right hand side, initial guess and number of iterations", "why_tests_cant": "Universal over systems and iteration counts.", "anchors": ["tools/miLinearAlgebra/solvers/regular/BiCGSTAB/helpers/mpi_v0.py"]}
{"id": "C31", "title": "LGMRES augmentation cache is always consistent", "statement": "During LGMRES every augmentation vector and cached product that is read has been written by the corresponding previous outer iteration and not been deleted, for every m,k and iteration count.", "quantifier": "every m, k, maxiter", "why_tests_cant": "Depends on the interplay of ITER, m, k.", "anchors": ["tools/miLinearAlgebra/solvers/regular/LGMRES/helpers/mpi_v0.py"]}
{"id": "C32", "title": "Static condensation solves the original saddle point system", "statement": "The rank-2 Schur solver's pair (x,y) solves the block system [M B; C D][x;y]=[g;h] iff y solves (D-C M^-1 B) y = h-C M^-1 g and x is the element-wise back substitution.", "quantifier": "every block system with element-wise invertible M", "why_tests_cant": "Universal algebra over all sizes.", "anchors": ["tools/miLinearAlgebra/solvers/Schur/rank2"]}
{"id": "C33", "title": "Newton-Raphson return code and iteration bound", "statement": "NewtonRaphson returns info 0 only if the last correction norm is below atol, performs at most maxiter iterations, and exactly int(maxiter) ones if maxiter is a string.", "quantifier": "every sequence of correction norms and every parameter set", "why_tests_cant": "Histories are unbounded.", "anchors": ["tools/miLinearAlgebra/nonlinearSystem/solve/NewtonRaphson/regular.py", "tools/miLinearAlgebra/nonlinearSystem/solve/NewtonRaphson/helpers/stop_criterion.py"]}
{"id": "C34", "title": "Interrupted time iteration resumes to the same result table", "statement": "If an iterator run is killed at any step and restarted from its saved table, the final table equals that of an uninterrupted run, provided the solver is a function of the time step only.", "quantifier": "every crash point, every number of restarts, every solver function", "why_tests_cant": "Crash points are unbounded.", "anchors": ["tools/iterators/base/main.py:run"]}
{"id": "C35", "title": "Solver-requested shut down stops the iteration", "statement": "When the solver reports shut_down (as True or with a reason string) the iterator stops after that step, and a resumed run does not continue past it. (Expected to fail: a reason string always raises; a resumed run forgets the shut down.)", "quantifier": "every solver, every step", "why_tests_cant": "Needs a history with a restart.", "anchors": ["tools/iterators/base/main.py:shut_down", "tools/iterators/base/main.py:run"]}
{"id": "C36", "title": "SimpleIterator accepts every consistent time setting", "statement": "SimpleIterator built from t0, dt, max_steps and/or max_time performs the least number of steps of size dt that reach max_time and accepts every positive step count. (Expected to fail in floating point: an exact equality assertion.)", "quantifier": "every t0, max_time, max_steps", "why_tests_cant": "Floating point corner cases.", "anchors": ["tools/iterators/simple.py"]}
{"id": "C37", "title": "Matrix input runner computes every missing input set exactly once across crashes", "statement": "Running the 3d-matrix-input runner, interrupting it after any number of written rows and rerunning it, results in every non-None input triple being computed exactly once overall, in the same order as an uninterrupted run.", "quantifier": "every input matrices and every crash point at row granularity", "why_tests_cant": "Crash points and inputs are unbounded.", "anchors": ["tools/legacy/serialRunners/INSTANCES/matrix3d_input_runner.py", "tools/legacy/serialRunners/_runner_.py"]}
{"id": "C38", "title": "Time formatting round trips", "statement": "Converting a number of seconds to [hh:mm:ss] / [dd:hh:mm:ss] text and back gives the same number of seconds.", "quantifier": "every non-negative integer number of seconds", "why_tests_cant": "Unbounded domain.", "anchors": ["components/miscellaneous/timer.py"]}
{"id": "C39", "title": "break_list_into_parts is a partition in order", "statement": "break_list_into_parts(L, counts) returns consecutive pieces of the requested lengths whose concatenation is L, and rejects counts that do not sum to len(L).", "quantifier": "every list and every list of counts", "why_tests_cant": "Unbounded inputs.", "anchors": ["components/miscellaneous/break_list.py"]}
{"id": "C40", "title": "Memoized functions return the function's value", "statement": "memoize1(f)(*args) always returns f(*args). (Expected to fail: the cache key is the string form of the arguments.)", "quantifier": "every call history", "why_tests_cant": "Needs two different arguments with the same string form.", "anchors": ["components/decorators/memoize/memoize_1.py:memoize1"]}
{"id": "C41", "title": "File name normalisation yields a valid .mi name", "statement": "check_filename_mi returns a name with exactly one dot, ending in '.mi', without spaces, and is idempotent.", "quantifier": "every string", "why_tests_cant": "Unbounded strings.", "anchors": ["components/miscellaneous/checks/check_filename_mi.py"]}
{"id": "C42", "title": "Piecewise function evaluation: last true condition wins", "statement": "genpiecewise evaluates at every point the function of the last condition that holds there, and the default function where none holds.", "quantifier": "every list of conditions and points", "why_tests_cant": "Universal.", "anchors": ["components/miscellaneous/generalized_piecewise_function.py"]}
{"id": "C43", "title": "Line intersection is the common point", "statement": "For two non-parallel lines given by two points each, the returned point lies on both lines; None is returned exactly for parallel lines.", "quantifier": "every four points (exact arithmetic)", "why_tests_cant": "Universal algebraic identity.", "anchors": ["components/functions/_2dSpace/line_intersection.py"]}
{"id": "C44", "title": "Transfinite mapping interpolates its four boundary curves", "statement": "If the four boundary curves agree at the corners, the transfinite mapping restricted to each side of the unit square is the corresponding boundary curve, and its coded partial derivatives are the derivatives of the mapping.", "quantifier": "every quadruple of boundary curves meeting at corners, every parameter value", "why_tests_cant": "Universal over curves.", "anchors": ["components/functions/_2dSpace/transfinite.py"]}
{"id": "C45", "title": "Local dof numbering is a bijection onto 0..num_basis-1", "statement": "For each 3D form (0,1,2,3-form) the local numbering arrays enumerate every local dof exactly once, component by component, first index fastest, and the number of basis functions is the advertised one.", "quantifier": "every polynomial degrees (px,py,pz)", "why_tests_cant": "Unbounded degrees.", "anchors": ["objects/CSCG/_3d/spaces/base/local_numbering.py", "objects/CSCG/_3d/spaces/base/num_basis.py"]}
{"id": "C46", "title": "Discrete exterior derivative squares to zero (3D)", "statement": "The incidence matrices satisfy E21\u00b7E10=0 and E32\u00b7E21=0, i.e. applying coboundary twice to any cochain gives the zero cochain.", "quantifier": "every polynomial degrees, every cochain", "why_tests_cant": "Unbounded degrees; the exactness identity is the defining property of the method.", "anchors": ["objects/CSCG/_3d/spaces/base/incidence_matrix.py", "objects/CSCG/base/forms/standard/coboundary.py"]}
{"id": "C47", "title": "Discrete exterior derivative squares to zero (2D)", "statement": "The 2D inner and outer incidence matrices satisfy E21\u00b7E10=0.", "quantifier": "every polynomial degrees, every cochain", "why_tests_cant": "Unbounded degrees.", "anchors": ["objects/CSCG/_2d/spaces/base/incidence_matrix.py"]}
{"id": "C48", "title": "Incidence matrices realise the boundary operator", "statement": "Row (edge, face, volume) of an incidence matrix has exactly the entries +1/-1 at the two end points, four boundary edges, six boundary faces with the right orientation, and zero elsewhere.", "quantifier": "every polynomial degrees and every row and column", "why_tests_cant": "Unbounded degrees.", "anchors": ["objects/CSCG/_3d/spaces/base/incidence_matrix.py"]}
{"id": "C49", "title": "Trace matrices select signed boundary dofs", "statement": "The trace matrix of a 0-/1-/2-form has exactly one nonzero per row: the local dof lying on that side, with sign - on N,W,B and + on S,E,F; the selective matrix is its absolute value; applied to a cochain it returns the signed values on the element boundary.", "quantifier": "every polynomial degrees, every cochain", "why_tests_cant": "Unbounded degrees.", "anchors": ["objects/CSCG/_3d/spaces/base/trace_matrix.py", "objects/CSCG/_3d/spaces/base/selective_matrix.py"]}
{"id": "C50", "title": "Non-hybrid local trace numbering is conforming and gap free", "statement": "The local gathering of the non-hybrid 0-, 1-, 2-trace spaces assigns to the six sides numbers such that two side dofs get the same number iff they are the same geometric local dof, and the numbers are exactly 0..num_basis(non-hybrid)-1.", "quantifier": "every polynomial degrees", "why_tests_cant": "Unbounded degrees.", "anchors": ["objects/CSCG/_3d/spaces/base/local_gathering.py", "objects/CSCG/_3d/spaces/base/num_basis.py"]}
{"id": "C51", "title": "Internal local dofs are exactly the dofs not on the element boundary", "statement": "space.internal_local_dofs of 0-, 1-, 2-forms lists exactly the local dofs lying on no side. (Expected to fail for 2-forms of degree (1,1,1), where the call raises instead of returning the empty list.)", "quantifier": "every polynomial degrees", "why_tests_cant": "Unbounded degrees, corner case of the lowest degree.", "anchors": ["objects/CSCG/_3d/spaces/base/internal_local_dofs.py"]}
{"id": "C52", "title": "Nodal basis: Kronecker property and partition of unity", "statement": "The Lagrange basis functions satisfy l_i(x_j)=delta_ij, sum to one, and interpolate every polynomial of degree at most p exactly.", "quantifier": "every set of distinct nodes, every degree p, every evaluation point (exact arithmetic)", "why_tests_cant": "Unbounded degrees and nodes.", "anchors": ["objects/CSCG/base/spaces/_1d_basis/polynomials.py:lagrange_basis"]}
{"id": "C53", "title": "Edge basis: histopolation and commutation with the derivative", "statement": "The integral of the i-th edge function over the j-th node interval is delta_ij, and the derivative of sum_i u_i l_i is sum_i (u_{i+1}-u_i) e_i; hence reconstruction commutes with the exterior derivative.", "quantifier": "every set of distinct nodes, every degree, every cochain", "why_tests_cant": "Unbounded degrees and nodes.", "anchors": ["objects/CSCG/base/spaces/_1d_basis/polynomials.py:edge_basis", "objects/CSCG/base/spaces/_1d_basis/polynomials.py:_derivative_poly_"]}
{"id": "C54", "title": "Basis evaluation is a function of its argument", "statement": "lagrange_basis(x) and edge_basis(x) return the basis values at the current content of x, for every call history. (Expected to fail when the caller modifies the same array in place between calls.)", "quantifier": "every call history including in-place modification of x", "why_tests_cant": "Needs a mutation between two calls.", "anchors": ["objects/CSCG/base/spaces/_1d_basis/polynomials.py:lagrange_basis"]}
{"id": "C55", "title": "Space refinement raises each degree by its own increment", "statement": "space.do.refine(p=(a,b,c)) returns a space of degrees (px+a,py+b,pz+c). (Expected to fail: the first increment is used in all directions.)", "quantifier": "every degrees and increments", "why_tests_cant": "Only visible for anisotropic increments.", "anchors": ["objects/CSCG/_3d/spaces/polynomials/do.py:refine"]}
{"id": "C56", "title": "Elements are partitioned over the cores in increasing order", "statement": "For every element distribution method the cores own consecutive disjoint ranges covering 0..num_elements-1.", "quantifier": "every number of elements, regions and cores", "why_tests_cant": "Integer load-balancing formulas for all sizes.", "anchors": ["objects/CSCG/base/mesh/base.py:___PRIVATE_BASE_parse_element_distribution_method___"]}
{"id": "C57", "title": "Element numbering of a structured region is a bijection, increasing along every axis", "statement": "Every element numbering scheme (default, chaotic, block-wise 'SWV0') numbers the elements of a region bijectively by a consecutive range, and increasing any local index increases the number.", "quantifier": "every layout, block size and region offset", "why_tests_cant": "Block remainders for all sizes.", "anchors": ["objects/CSCG/_3d/mesh/main.py:___PRIVATE_generate_element_global_numbering___"]}
{"id": "C58", "title": "Element adjacency map is symmetric", "statement": "If the element map says that element k is at side s of element i then element i is at the opposite side of k; boundary sides carry boundary names; periodic pairing keeps the symmetry.", "quantifier": "every layout and element, periodic or not", "why_tests_cant": "Unbounded layouts.", "anchors": ["objects/CSCG/_3d/mesh/main.py:___PRIVATE_fetch_side_element___", "objects/CSCG/_3d/mesh/main.py:___PRIVATE_modify_elements_map_wr2_periodic_setting___"]}
{"id": "C59", "title": "Trace elements: one number per face, shared by exactly the two adjacent sides", "statement": "Trace element generation never fails its assertions, numbers faces 0..n-1 without gaps, gives two element sides the same trace element iff they are the same side or opposite sides of the interface, independent of how elements are distributed over cores.", "quantifier": "every symmetric element map, every distribution over cores", "why_tests_cant": "Unbounded meshes and distributions.", "anchors": ["objects/CSCG/_3d/mesh/trace/elements/main.py:___PRIVATE_generating_trace_elements___"]}
{"id": "C60", "title": "Trace/edge element type counts are prefix counts", "statement": "The type-amount table of trace (edge) element i counts the NS/WE/BF elements numbered before i, on every core; so hybrid trace and edge form dofs get disjoint consecutive ranges covering 0..N-1.", "quantifier": "every mesh and distribution over cores", "why_tests_cant": "Computed by a relay over cores with deletions.", "anchors": ["objects/CSCG/_3d/mesh/trace/elements/main.py:___PRIVATE_find_type_and_amount_numbered_before___", "objects/CSCG/_3d/mesh/edge/elements/main.py", "objects/CSCG/_3d/forms/trace/base/numbering/Naive.py", "objects/CSCG/_3d/forms/edge/base/numbering/Naive.py"]}
{"id": "C61", "title": "Naive numbering of non-hybrid forms is conforming", "statement": "On a structured mesh the naive numbering of a non-hybrid 0-, 1-, 2-form (and of mesh nodes and edges) gives two local dofs of two elements the same number iff they are the same geometric entity, and uses exactly 0..N-1.", "quantifier": "every layout, degrees, axis-increasing element numbering", "why_tests_cant": "Propagation of numbers over faces through an unbounded mesh.", "anchors": ["objects/CSCG/_3d/forms/standard/base/numbering/Naive.py", "objects/CSCG/_3d/mesh/node/elements/main.py", "objects/CSCG/_3d/mesh/edge/elements/main.py"]}
{"id": "C62", "title": "Naive numbering works for every region order", "statement": "Naive numbering of non-hybrid forms succeeds and is conforming on every multi-region mesh. (Expected to fail: it raises, or numbers shared dofs twice, if an element has no already numbered face neighbour.)", "quantifier": "every symmetric element map", "why_tests_cant": "Needs unusual region sequences.", "anchors": ["objects/CSCG/_3d/forms/standard/base/numbering/Naive.py", "objects/CSCG/_3d/mesh/edge/elements/main.py"]}
{"id": "C63", "title": "Non-hybrid trace numbering is the restriction of the form numbering", "statement": "The non-hybrid trace form numbering gives two trace dofs the same number iff the corresponding standard form dofs have the same number, numbers are 0..N_surface-1, and its assertions hold.", "quantifier": "every conforming incremental form numbering", "why_tests_cant": "Relies on ordering invariants of the form numbering.", "anchors": ["objects/CSCG/_3d/forms/trace/base/numbering/Naive.py:___Pr_nonhybrid_numbering___"]}
{"id": "C64", "title": "Global cochain round trip", "statement": "Setting a form's cochain from the global vector it returns (f.cochain.globe = f.cochain.globe) leaves the local cochains unchanged when shared dofs agree. (Expected to fail for hybrid forms with zero entries: uninitialised memory is read.)", "quantifier": "every cochain, gathering matrix and distribution", "why_tests_cant": "Needs zero entries and specific memory content.", "anchors": ["objects/CSCG/base/forms/standard/cochain/main.py:globe"]}
{"id": "C65", "title": "Saving and reading back objects is the identity", "statement": "Objects saved with save(objects, filename) and read back give the same list of objects in the same order.", "quantifier": "every list of saved objects", "why_tests_cant": "Container conventions are ambiguous for some lists.", "anchors": ["root/save.py", "root/read/main.py"]}
{"id": "C66", "title": "Strong boundary conditions determine exactly the dofs on the boundaries asked for", "statement": "Boundaries can be set exactly if they are boundaries of the mesh; the prescribed dofs of every element are those with cells on its sides beside these boundaries. If every dof is prescribed at all its places or at none (hybrid forms and 2-forms on every mesh, all forms on meshes of one region) the vectors solving the system after apply_strong_BC are those with the prescribed values at these dofs which satisfy all other equations of the system before; off the diagonal the row becomes the equation of the partner. The cached interpretation is that of the latest boundaries of the form.", "quantifier": "every mesh, distribution over cores, degrees, request, cochain, block position, local matrices and vectors, earlier customizations, every history of conditions", "why_tests_cant": "All meshes, distributions and systems; whether an address is reused depends on the allocator.", "anchors": ["tools/miLinearAlgebra/linearSystem/customize.py:16-74", "tools/elementwiseCache/dataStructures/objects/sparseMatrix/customize.py:285-436", "tools/elementwiseCache/dataStructures/objects/columnVector/customize.py:121-228", "objects/CSCG/base/forms/base/BC/main.py:33-65", "objects/CSCG/base/forms/base/BC/interpret/local.py:10-121", "objects/CSCG/_3d/mesh/boundaries/main.py:45-95"]}
{"id": "C67", "title": "Cochains of several forms go into one vector and back", "statement": "Distributing the locally full vector made of the cochains of several forms (chain_method 'silly') gives every form its local cochains back; form j owns the entries behind those of the forms before it, forms behind a None own the last entries, and vectors that are too short are refused. With a chained gathering matrix basis function i of form j gets the entry of its dof in the chain. (Expected to fail for chain_method 'sequent': element vectors are added up.)", "quantifier": "every list of forms, gathering matrices, cochains, vectors and distributions over cores (exact arithmetic)", "why_tests_cant": "Forms, gathering matrices and distributions are unbounded.", "anchors": ["tools/miLinearAlgebra/dataStructures/vectors/locallyFull/main.py:30-80", "tools/miLinearAlgebra/dataStructures/vectors/locallyFull/do.py:12-113"]}
{"id": "C68", "title": "The distributed Arnoldi process equals the serial one", "statement": "For any number of cores, one GMRES cycle with the basis vectors distributed over the cores (routine 1) and the LGMRES cycle build, after the reductions, the same Hessenberg matrix and the same basis vectors as the process that keeps every basis vector on the master (routine 0).", "quantifier": "every number of cores, restart length, distributed matrix and start vector", "why_tests_cant": "The result depends on the assignment of basis vectors to cores; tests run one or two core counts.", "anchors": ["tools/miLinearAlgebra/solvers/regular/GMRES/helpers/mpi_v0.py", "tools/miLinearAlgebra/solvers/regular/GMRES/helpers/mpi_v1.py", "tools/miLinearAlgebra/solvers/regular/LGMRES/helpers/mpi_v0.py"]}
{"id": "C69", "title": "Fixed solutions in the Newton solver", "statement": "A dof given a fixed solution value in a nonlinear system ends with exactly that value, and the value takes part in the linearization from the first Newton iteration on. (The last clause is expected to fail: the initial guess is distributed to the forms before the value is written into it.)", "quantifier": "every nonlinear system, initial guess, list of customizations and number of iterations", "why_tests_cant": "A converged test run hides a wrong first linearization; the invariance of a dof must hold for every number of iterations.", "anchors": ["tools/miLinearAlgebra/nonlinearSystem/customize.py:set_fixed_solution", "tools/miLinearAlgebra/nonlinearSystem/solve/NewtonRaphson/regular.py:__call__"]}
{"id": "C70", "title": "Jacobi preconditioning keeps the distributed system", "statement": "The Jacobi preconditioner is the same diagonal matrix in all cores, the reciprocal of the diagonal of the assembled matrix; applying it core by core to the distributed matrix and right hand side scales row i of the assembled system by 1/A_ii, so the solutions are unchanged.", "quantifier": "every distribution of every matrix with invertible diagonal entries", "why_tests_cant": "Must hold for every distribution of the entries over the cores.", "anchors": ["tools/miLinearAlgebra/preconditioners/Jacobi.py", "tools/miLinearAlgebra/solvers/regular/GMRES/helpers/mpi_v0.py"]}
{"id": "C71", "title": "take_closest returns the closest entry", "statement": "take_closest returns an entry of a sorted list whose distance to the given number is least, the smallest such entry on ties.", "quantifier": "every non-empty ascending list and every number (exact arithmetic)", "why_tests_cant": "Universal over lists; off-by-one errors of the search show only at particular positions.", "anchors": ["components/collections/take_closest.py:take_closest"]}
{"id": "C73", "title": "A scaled function stays what it was", "statement": "The function returned by ScalingFunc(C)(f) is C*f, whatever happens to other scaling objects. (Expected to fail when the same object is called again.)", "quantifier": "every history of creations and calls of scaling objects", "why_tests_cant": "Needs a second use of the same object.", "anchors": ["components/functions/_2dSpace/scaling.py:ScalingFunc", "components/functions/_3dSpace/scaling.py:ScalingFunc"]}
{"id": "C74", "title": "Report selection keeps order, first and last rows", "statement": "The rows selected for an iteration report are strictly increasing valid row numbers, as many as asked for (or all), and contain the first row and the last `last_num` rows.", "quantifier": "every number of rows and every selection sizes (exact arithmetic)", "why_tests_cant": "Duplicates appear only at particular ratios.", "anchors": ["tools/iterators/base/monitor/do.py:___Pr_select_reasonable_amount_of_data___"]}
{"id": "C75", "title": "General file name checker is idempotent", "statement": "check_filename splits a name at its last dot, replaces the other dots, keeps the length, returns parts without dots, and applied to the rejoined parts returns the same parts.", "quantifier": "every string", "why_tests_cant": "Unbounded strings.", "anchors": ["components/miscellaneous/checks/check_filename.py:check_filename"]}
{"id": "C76", "title": "Selective matrices of edge forms pick the dofs on the twelve edges", "statement": "Row r of the selective matrix of a 0-/1-edge form has one entry 1, at the local dof of the 0-/1-form lying on the corresponding edge of the element (edges in the order WB,EB,WF,EF,NB,SB,NF,SF,NW,SW,NE,SE, dofs along the edge in order), and the numbers reported for the dofs of one edge are exactly the rows of that edge.", "quantifier": "every polynomial degrees, every edge, row and column", "why_tests_cant": "Unbounded degrees; twelve edges times two forms.", "anchors": ["objects/CSCG/_3d/spaces/base/selective_matrix.py", "objects/CSCG/_3d/spaces/base/local_numbering.py"]}
{"id": "C77", "title": "The topological connection couples a form with its trace on the surface", "statement": "The pair of matrices (A,B) returned by the topological connection of a standard form and its non-hybrid trace satisfies: A u = B t exactly when every trace dof of t equals the (signed) value of u at the form dof it lies on; every surface dof is covered.", "quantifier": "every polynomial degrees, every commutative ring, every cochains u, t", "why_tests_cant": "Statement about all cochains and degrees.", "anchors": ["objects/CSCG/_3d/spaces/base/topological_connection/main.py"]}
{"id": "C78", "title": "Discrete Gauss theorem of incidence and trace matrices", "statement": "For every 2-form cochain of an element the sum over all small volumes of the discrete divergence equals the sum over all boundary faces of the trace with outward signs; in 2D the same for the outer 1-form.", "quantifier": "every polynomial degrees, every commutative ring, every cochain", "why_tests_cant": "Unbounded degrees, all cochains; relates two independently written matrices.", "anchors": ["objects/CSCG/_3d/spaces/base/incidence_matrix.py", "objects/CSCG/_3d/spaces/base/trace_matrix.py", "objects/CSCG/_2d/spaces/base/trace_matrix.py", "objects/CSCG/_2d/spaces/base/incidence_matrix.py"]}
{"id": "C79", "title": "slave_of_element finds the core that owns an element", "statement": "For every distribution of consecutive ranges over any number of cores, slave_of_element(i) returns core c exactly when i is in the range of c; the bisection (more than 6 cores, none empty) and the linear search agree with this.", "quantifier": "every distribution, number of cores and element number (also numbers that are no element)", "why_tests_cant": "Bisection with hand-written stop distances, all sizes and distributions.", "anchors": ["objects/CSCG/_3d/mesh/do/find.py:slave_of_element"]}
{"id": "C80", "title": "The region map is mutual", "statement": "An accepted region map gives every side of every region exactly one neighbour: the boundary the side was declared to be in, or one other region n sharing its corners, whose facing side is given to the first region; every declared region side gets its boundary and belongs to one boundary only; attached sides have the same corners.", "quantifier": "every number of regions, corner coordinates, boundaries and declared region sides", "why_tests_cant": "All region configurations, including cracks (sides shared but declared boundary).", "anchors": ["objects/CSCG/_3d/mesh/domain/main.py:___PRIVATE_generate_region_map___"]}
{"id": "C81", "title": "Optimising the SWV0 distribution keeps it a partition", "statement": "The optimisation of the smart distribution (moving whole layers of element blocks off the master and secretary) never fails, gives again consecutive ranges covering all elements, keeps every core in its region and empties no core.", "quantifier": "every number of cores, regions, layouts", "why_tests_cant": "Integer block arithmetic for all layouts and numbers of cores.", "anchors": ["objects/CSCG/_3d/mesh/main.py:___PRIVATE_optimize_element_distribution___"]}
{"id": "C82", "title": "Elements tile the reference cube of a region", "statement": "For every accepted element layout (numbers or relative sizes per axis) the origins and sizes reported for the elements tile [0,1)^3: every point lies in the box of exactly one local index, and spacing[j+1] = spacing[j] + ratio[j], from 0 to 1.", "quantifier": "every layout, every point; exact rational arithmetic", "why_tests_cant": "All layouts and points.", "anchors": ["objects/CSCG/_3d/mesh/main.py:___PRIVATE_parse_element_layout_each_region___", "objects/CSCG/_3d/mesh/do/find.py:reference_origin_and_size_of_element_of_given_local_indices"]}
{"id": "C83", "title": "Records of node and edge elements are complete on every core", "statement": "Every core that has an element containing a node (edge) element has exactly one record for it, listing every place (element, local index) of the mesh, every element and every boundary it is on, also those of other cores.", "quantifier": "every mesh and distribution over cores; every node and edge element", "why_tests_cant": "Depends on the full adjacency and on the order in which cores append to and overwrite the shared dictionary.", "anchors": ["objects/CSCG/_3d/mesh/edge/elements/main.py:296-460", "objects/CSCG/_3d/mesh/node/elements/main.py:162-330"]}
{"id": "C84", "title": "Cochains saved region-wise fit any element numbering", "statement": "Grouping the local cochains of all cores by region name and local indices and distributing them in a mesh of the same layouts gives every element the cochain of the element at the same place; the text keys determine region and indices.", "quantifier": "every layout, any two element numberings and distributions, every region names, every cochain", "why_tests_cant": "All pairs of numberings and distributions.", "anchors": ["objects/CSCG/base/forms/standard/cochain/main.py:66-116"]}
{"id": "C85", "title": "Region maps have the given sides and the coded Jacobian matrices are their derivatives", "statement": "The transfinite map of the unit cube has its six given sides as faces exactly when the sides fit along the edges; the coded Jacobian matrix holds its partial derivatives. Regions given by eight corners fit and are trilinear; the orthogonal map is the transfinite map of a box. The crazy maps keep the boundary, their coded Jacobian matrices are their derivatives, the determinant is positive exactly for 2 pi |c| < sqrt 3 (3D) and pi |c| < 1 (2D), and then they are bijections onto the box. Straight and arc edges of plane regions join their corners, arcs turn the right way, and the transfinite map of the plane region meets the hypotheses of C44.", "quantifier": "every six sides, every eight corners, every parameter c and bounds, every arc, every point (over the reals)", "why_tests_cant": "Sides, parameters and points are real; tests sample points.", "anchors": ["objects/CSCG/_3d/mesh/domain/regions/region/interpolations/transfinite.py:106-1292", "objects/CSCG/_3d/mesh/domain/regions/region/interpolations/orthogonal.py:20-144", "objects/CSCG/_3d/mesh/domain/regions/region/interpolations/crazy.py:31-220", "objects/CSCG/_3d/mesh/domain/regions/region/side_geometries/plane.py:25-80", "objects/CSCG/_2d/mesh/domain/regions/region/interpolations/crazy.py:23-84", "objects/CSCG/_2d/mesh/domain/regions/region/edge_geometries/acw.py:9-40", "objects/CSCG/_2d/mesh/domain/regions/region/edge_geometries/aacw.py:8-41", "components/functions/_2dSpace/angle.py:6-25"]}
{"id": "C86", "title": "Accepted regions are valid and their volume is right", "statement": "Sides passing the consistency check fit; the crazy mesh is valid for the parameters the code uses and draws; the volume of a region is the integral of the determinant. (Expected to fail: the check samples 2 to 4 points of an edge; any c is accepted; the nodes of [-1,1]^3 are used in [0,1]^3.)", "quantifier": "every sides, every c, every region and every quadrature exact for linear functions", "why_tests_cant": "Sides and parameters are real.", "anchors": ["objects/CSCG/_3d/mesh/domain/regions/region/interpolations/transfinite.py:37-84", "objects/CSCG/_3d/mesh/domain/regions/region/main.py:76-84", "objects/CSCG/_3d/mesh/domain/inputs/crazy.py:16-67"]}
{"id": "C87", "title": "Coordinate transformations of elements and their sides", "statement": "The coded Jacobian matrix of an element holds the derivatives of its map whatever the map of the region, its determinant is that of the region times an eighth of the volume in the reference cube; the orthogonal shortcut gives the same matrix; the coded inverse is a two-sided inverse with the reciprocal determinant; G is J^T J, its determinant the coded metric, and the coded inverse metric its inverse. Elements beside each other in a region have the same points on the common side. On a side the coded columns are the tangents, the coded metric the squared area, the unit normal is one, and the outward normal points away from either of its two elements exactly if the determinant of that element is positive.", "quantifier": "every differentiable region map, every element of every layout, every side, every point (over the reals)", "why_tests_cant": "Maps, layouts and points are infinite families; the swapped order of the columns on W and E sides and the sign of the neighbour's normal hide on symmetric test meshes.", "anchors": ["objects/CSCG/_3d/mesh/elements/element/coordinate_transformation.py:18-226", "objects/CSCG/_3d/mesh/trace/elements/element/coordinate_transformation/main.py:24-263", "objects/CSCG/_3d/mesh/trace/elements/main.py:319-333", "objects/CSCG/_3d/mesh/do/find.py:48-54"]}
{"id": "C88", "title": "A 1-trace does not depend on the element its side is taken from", "statement": "The reconstruction of a 1-form on a side and the weights of its mass matrix are the same from both elements at the side, so also the same for every distribution of the elements over the cores. (Expected to fail: rows of the 3D inverse are used; they have a part normal to the side unless the element is orthogonal to the side.)", "quantifier": "every pair of elements with a common side, every point, every value (over the reals)", "why_tests_cant": "Orthogonal meshes hide the difference.", "anchors": ["objects/CSCG/_3d/forms/trace/_1tr/main.py:131-247", "objects/CSCG/_3d/mesh/trace/elements/main.py:228-260", "objects/CSCG/_3d/mesh/trace/elements/element/coordinate_transformation/main.py:116-161"]}
{"id": "C89", "title": "Values cached by metric type are those of the element", "statement": "Whatever the order of accesses, the value a cache keyed by metric type returns for an element or trace element is the one computed for it; elements with equal marks have equal Jacobian matrices. (Expected to fail: marks hold lengths printed with 3 to 5 decimals, those of trace elements the sizes in the reference cube of the region.)", "quantifier": "every mesh of orthogonal and chaotic regions, every element layout, every sequence of accesses, every rounding to a nearest decimal", "why_tests_cant": "Meshes and sequences are infinite families; tests use sizes that are printed exactly and a single region.", "anchors": ["objects/CSCG/_3d/mesh/elements/element/types_wrt_metric/orthogonal.py:10-30", "objects/CSCG/_3d/mesh/trace/elements/element/types_wrt_metric/orthogonal.py:18-32", "objects/CSCG/_3d/mesh/domain/regions/region/types_wrt_metric/crazy.py:35-74", "objects/CSCG/_3d/mesh/domain/regions/region/types_wrt_metric/orthogonal.py:58-91", "objects/CSCG/_3d/mesh/elements/main.py:34-53", "objects/CSCG/_3d/mesh/elements/coordinate_transformation/helpers/value_cache.py:39-79", "objects/CSCG/_3d/mesh/trace/elements/coordinate_transformation/helpers/value_cache.py:19-60", "objects/CSCG/_2d/mesh/elements/element/types_wrt_metric/orthogonal.py:14-25"]}
{"id": "C90", "title": "The constant Jacobian of a trace element is the area factor of its map", "statement": "constant.Jacobian, which boundary integration multiplies with, equals the square root of the metric of the trace element (3D) and half the length of the edge (2D). (Expected to fail: it is read back from the mark, which holds rounded sizes in the reference cube.)", "quantifier": "every orthogonal region, element, side and point, every rounding to a nearest decimal", "why_tests_cant": "Tests use unit regions.", "anchors": ["objects/CSCG/_3d/mesh/trace/elements/element/coordinate_transformation/constant.py:60-88", "objects/CSCG/base/forms/base/BC/interpret/helpers/boundary_integration.py:119-143", "objects/CSCG/_2d/mesh/trace/elements/element/coordinate_transformation/constant.py:20-52"]}
{"id": "C91", "title": "Discretization integrates over the cells of the degrees of freedom", "statement": "The cochains written by the 3D 0-, 1-, 2- and 3-form discretizations hold, in the order of the numbering of the degrees of freedom, the values at the nodes, the line integrals of the vector along the edges, its fluxes through the faces and the volume integrals, computed by the product quadrature rule on the pulled-back field. Marks starting with 'Orth' give the same numbers when the Jacobian matrix is diagonal.", "quantifier": "all node lists and degrees per axis, all quadrature rules, all maps and Jacobian matrices, all scalars and vectors; exact arithmetic", "why_tests_cant": "Tests compare norms of errors for smooth fields at equal degrees per axis; wrong orders of tile/repeat or swapped cofactors only show for particular fields and anisotropic degrees.", "anchors": ["objects/CSCG/_3d/forms/standard/_0s/discretize/scalar/standard.py:23-41", "objects/CSCG/_3d/forms/standard/_1s/discretize/vector/standard.py:16-210", "objects/CSCG/_3d/forms/standard/_2s/discretize/vector/standard.py:25-227", "objects/CSCG/_3d/forms/standard/_3s/discretize/scalar/standard.py:24-76"]}
{"id": "C92", "title": "Discretization commutes with the gradient", "statement": "E10 times the cochain of f equals the cochain of grad f, when the one-dimensional rules integrate the derivatives of f o F along the axes exactly.", "quantifier": "all degrees, nodes, rules, differentiable maps with their Jacobian matrix, all scalars with gradient", "why_tests_cant": "A finite sample of functions cannot establish an identity of operators; sign or index errors in one of the three matrices can cancel in norms.", "anchors": ["objects/CSCG/_3d/forms/standard/_0s/discretize/scalar/standard.py:23-41", "objects/CSCG/_3d/forms/standard/_1s/discretize/vector/standard.py:16-210", "objects/CSCG/_3d/spaces/base/incidence_matrix.py"]}
{"id": "C93", "title": "Discretization commutes with the curl", "statement": "E21 times the cochain of a vector equals the cochain of its curl on curved elements, when the rules integrate the derivatives of the pulled-back components along the other axes exactly.", "quantifier": "all degrees, nodes, rules, twice differentiable maps, all differentiable vectors", "why_tests_cant": "Needs the cofactor formulas of the 2-form, the orientation of the faces and the signs of E21 to fit together for every map and field.", "anchors": ["objects/CSCG/_3d/forms/standard/_1s/discretize/vector/standard.py:16-210", "objects/CSCG/_3d/forms/standard/_2s/discretize/vector/standard.py:25-227", "objects/CSCG/_3d/spaces/base/incidence_matrix.py"]}
{"id": "C94", "title": "Discretization commutes with the divergence", "statement": "E32 times the cochain of a vector as 2-form equals the cochain of its divergence as 3-form on curved elements, when the rules integrate the derivatives of the pulled-back fluxes along their normal axis exactly.", "quantifier": "all degrees, nodes, rules, twice differentiable maps, all differentiable vectors", "why_tests_cant": "Rests on the Piola identity between the nine cofactor formulas and the determinant.", "anchors": ["objects/CSCG/_3d/forms/standard/_2s/discretize/vector/standard.py:25-227", "objects/CSCG/_3d/forms/standard/_3s/discretize/scalar/standard.py:24-76", "objects/CSCG/_3d/spaces/base/incidence_matrix.py"]}
{"id": "C95", "title": "2D discretization integrates over the cells and commutes with the derivatives", "statement": "The cochains of 2D 0-forms, inner and outer 1-forms and 2-forms hold, in the order of the numbering, nodal values, circulations along edges, fluxes through edges (towards increasing coordinates) and area integrals. E10/E21 of the inner and outer spaces map them to the cochains of the gradient, rotation, rotated gradient and divergence, when the one-dimensional rules are exact for the pulled-back fields; 1-forms and 2-forms use rules of different degrees.", "quantifier": "all degrees, nodes, rules, maps with Jacobian matrix and mixed derivatives, all fields", "why_tests_cant": "Signs of the outer forms and the orders of tile, repeat and reshape only show for particular fields and unequal degrees.", "anchors": ["objects/CSCG/_2d/forms/standard/_0_form/base/discretize/scalar/standard.py:21-38", "objects/CSCG/_2d/forms/standard/_1_form/base/main.py:56-78", "objects/CSCG/_2d/forms/standard/_1_form/inner/discretize/vector/standard.py:27-113", "objects/CSCG/_2d/forms/standard/_1_form/outer/discretize/vector/standard.py:27-115", "objects/CSCG/_2d/forms/standard/_2_form/base/discretize/scalar/standard.py:27-74", "objects/CSCG/_2d/spaces/base/incidence_matrix.py"]}
{"id": "C96", "title": "The coordinate transformation of 2D elements is consistent", "statement": "Jacobian_matrix holds the partial derivatives of mapping (for 'Orth' marks when the region's matrix is diagonal); inverse_Jacobian_matrix is the two-sided inverse, inverse_Jacobian the inverse determinant, metric_matrix J^T J, metric its determinant, inverse_metric_matrix its inverse.", "quantifier": "all region maps with derivatives, all elements, all points with nonzero Jacobian", "why_tests_cant": "Sign or index slips in hand-written inverses show only for non-symmetric matrices.", "anchors": ["objects/CSCG/_2d/mesh/elements/element/coordinate_transformation/main.py:45-182"]}
{"id": "C97", "title": "Reconstruction evaluates the field of the cochain", "statement": "The values reconstructed on a tensor grid are, at index (i,j,k) in order 'F', the scalar or vector whose pull back to the reference element is the sum of the cochain entries times the basis functions of their cells, for 0-, 1-, 2- and 3-forms, orthogonal or curved elements. The reconstruction matrices times the cochain give the same values.", "quantifier": "all degrees, basis functions, grids, cochains and Jacobian matrices with nonzero determinant on the grid", "why_tests_cant": "Kronecker products, raveling orders and nine hand-written cofactors only show for unequal degrees and non-symmetric Jacobian matrices.", "anchors": ["objects/CSCG/_3d/forms/standard/_0s/reconstruct.py:55-120", "objects/CSCG/_3d/forms/standard/_1s/reconstruct.py:30-110", "objects/CSCG/_3d/forms/standard/_2s/reconstruct.py:30-140", "objects/CSCG/_3d/forms/standard/_3s/reconstruct.py:60-140", "objects/CSCG/_3d/forms/standard/_1s/inheriting/private.py:35-105", "objects/CSCG/_3d/forms/standard/_2s/inheriting/private.py:36-122", "objects/CSCG/_3d/spaces/base/do.py:82-191"]}
{"id": "C98", "title": "Discretization inverts reconstruction", "statement": "Discretizing (with rules exact for the derivatives of the nodal polynomials) a field that on the element is the reconstruction of a cochain returns exactly that cochain, for all four kinds of forms.", "quantifier": "all degrees, nodes, exact rules, maps, cochains", "why_tests_cant": "Relates two independently written code paths; floating point tests only see sampled cochains.", "anchors": ["objects/CSCG/_3d/forms/standard/_0s/discretize", "objects/CSCG/_3d/forms/standard/_1s/discretize/vector/standard.py", "objects/CSCG/_3d/forms/standard/_2s/discretize/vector/standard.py", "objects/CSCG/_3d/forms/standard/_3s/discretize/scalar/standard.py", "objects/CSCG/_3d/forms/standard/_1s/reconstruct.py"]}
{"id": "C99", "title": "Mass matrices hold the integrals of inner products and are symmetric positive definite", "statement": "cochain^T M cochain' equals the quadrature of the inner product of the two reconstructed fields over the physical element (0- to 3-forms, orthogonal shortcut and transposed blocks included). The matrices are symmetric, and positive definite when weights and Jacobian are positive and the rule has enough points.", "quantifier": "all degrees, rules, Jacobian matrices nonzero/positive at the points, all cochains", "why_tests_cant": "Block orders, the metric cofactors and the reuse of transposed blocks are checked only for particular meshes.", "anchors": ["objects/CSCG/_3d/forms/standard/_0s/inheriting/private.py:45-52", "objects/CSCG/_3d/forms/standard/_1s/inheriting/private.py:107-236", "objects/CSCG/_3d/forms/standard/_2s/inheriting/private.py:124-230", "objects/CSCG/_3d/forms/standard/_3s/inheriting/private.py:64-73"]}
{"id": "C100", "title": "The wedge matrix of 1- and 2-forms is metric free", "statement": "cochain2^T W cochain1 is the quadrature over the reference element of the products of pulled-back components, and equals that of the inner product of the physical vectors times the Jacobian for every map.", "quantifier": "all degrees, rules, maps, cochains", "why_tests_cant": "Independence of the map is a statement about all maps.", "anchors": ["objects/CSCG/_3d/forms/standard/_1s/inheriting/private.py:238-270"]}
{"id": "C101", "title": "Derivatives of reconstructed forms are reconstructions of incidence times cochain", "statement": "Inside the element the gradient, curl and divergence of the field reconstructed from a cochain of a 0-, 1-, 2-form is the field reconstructed from E10, E21, E32 times the cochain, on curved elements.", "quantifier": "all degrees, cochains, twice differentiable maps, differentiable fields equal to the reconstruction inside the element", "why_tests_cant": "Pointwise identity for all points, maps and cochains.", "anchors": ["objects/CSCG/_3d/spaces/base/incidence_matrix.py", "objects/CSCG/_3d/forms/standard/_0s/reconstruct.py", "objects/CSCG/_3d/forms/standard/_1s/reconstruct.py", "objects/CSCG/_3d/forms/standard/_2s/reconstruct.py", "objects/CSCG/_3d/forms/standard/_3s/reconstruct.py"]}
{"id": "C102", "title": "The polynomials of the space fulfil the hypotheses of reconstruction", "statement": "Over the reals, the Lagrange and edge polynomials on accepted nodes are a nodal basis with edge functions giving derivatives; any set of at least p+1 points separates them; a rule exact for powers below p integrates the derivatives between nodes.", "quantifier": "all accepted node lists, all point sets, all rules", "why_tests_cant": "All degrees and node distributions.", "anchors": ["objects/CSCG/base/spaces/_1d_basis/polynomials.py"]}
{"id": "C103", "title": "Arrays of cross products hold the integrals of (w x u) . e", "statement": "The 3d array of an element contracted with the cochains of w, u, e is the quadrature of the triple product of the reconstructed fields over the physical element, for w, u, e of degree 1 or 2. The outputs '2-M-1' and '2-M-0' are the matrices of this trilinear form with w or u given.", "quantifier": "all degrees, rules, Jacobian matrices, cochains of the three forms", "why_tests_cant": "Six einsums of twelve matrices in the order of raveled points; tests run on meshes with constant determinants or compare small residuals.", "anchors": ["objects/CSCG/_3d/forms/standard/_1s/special/helpers/cross_product_1__ip_1.py", "objects/CSCG/_3d/forms/standard/_1s/special/helpers/cross_product_2__ip_2.py", "objects/CSCG/_3d/forms/standard/_2s/special/helpers/cross_product_1__ip_2.py", "objects/CSCG/_3d/forms/standard/_2s/special/helpers/cross_product_2__ip_1.py", "objects/CSCG/_3d/forms/standard/_2s/special/helpers/cross_product_2__ip_2.py", "objects/CSCG/_3d/forms/standard/_2s/special/helpers/cross_product_2__ip_2_2M0.py"]}
{"id": "C104", "title": "Convection and induction terms", "statement": "The array of (curl u x u, e) contracted with cochains is the quadrature of (w x u) . e on every element, and the vector for a cochain of u is that of (curl u x u) . e. The array of (curl(u x B), b) is the quadrature of curl(u x B) . b when u x B is a 1-form of the intermediate space.", "quantifier": "all degrees, rules inside the element, twice differentiable maps, cochains", "why_tests_cant": "Involves the derivative of a reconstructed field and the inverse of a mass matrix for all inputs.", "anchors": ["objects/CSCG/_3d/forms/standard/_1s/special/helpers/curl1_cross_product_1__ip_2.py", "objects/CSCG/_3d/forms/standard/_2s/special/helpers/inner_curl_cross_2f2f.py"]}
{"id": "C105", "title": "Multi-dimensional matrices contract as multilinear forms", "statement": "eliminate, evaluate, reduce_to_vector and derivative_contribution_to of a MultiDimMatrix give the values of its multilinear form: a known form's cochain goes into the slot of that form whatever the order of the pairs and of the axes; evaluate with all the forms known is the sum over all elements of all cores, of two vectors given for the same form the last one counts, with one left the vector of partial values; the derivative block has the rows of the test variable and the columns of the unknown.", "quantifier": "all arrays of any dimension, correspondences, cochains, distributions over cores", "why_tests_cant": "einsum strings are built at run time from dictionaries; the tests use two or three correspondences of fixed order.", "anchors": ["tools/elementwiseCache/dataStructures/objects/multiDimMatrix/do/main.py", "tools/elementwiseCache/dataStructures/objects/multiDimMatrix/do/helpers/eliminate_helper.py", "tools/elementwiseCache/dataStructures/objects/multiDimMatrix/do/helpers/evaluate_remaining_1.py", "tools/elementwiseCache/dataStructures/objects/multiDimMatrix/do/helpers/reduce_to_vector_helper.py", "tools/elementwiseCache/dataStructures/objects/multiDimMatrix/do/helpers/sparse_matrix_helper.py", "tools/elementwiseCache/dataStructures/objects/multiDimMatrix/whether.py"]}
{"id": "C106", "title": "The Newton matrix is the Jacobian of the nonlinear system", "statement": "evaluate_f computes A x + nonlinear(x) - b, and the matrix assembled in each Newton iteration is the exact derivative of the assembled residual F: F(x + t h) = F(x) + t J(x) h + t^2 N(h) for all x, h, t; rows of dofs set to 'no evaluation' are unit rows with right hand side 0. A right hand side entry may be a vector, None or 0.", "quantifier": "all systems the constructor accepts with trilinear terms, numberings, vectors x and h, scalars t", "why_tests_cant": "A wrong derivative only slows Newton's method down; tests check convergence for two systems.", "anchors": ["tools/miLinearAlgebra/nonlinearSystem/do.py", "tools/miLinearAlgebra/nonlinearSystem/nonliner_terms.py", "tools/miLinearAlgebra/nonlinearSystem/main.py", "tools/miLinearAlgebra/nonlinearSystem/solve/NewtonRaphson/regular.py", "tools/elementwiseCache/dataStructures/objects/multiDimMatrix/do/main.py"]}
{"id": "C107", "title": "What NewtonRaphson returns solves the system", "statement": "With linear systems solved exactly, the vector NewtonRaphson returns satisfies every equation that is not switched off up to the quadratic part of the last correction (exactly if the correction is 0 or the system is linear), and the dofs set by set_no_evaluation or set_fixed_solution have the prescribed values.", "quantifier": "all systems, customizations, starts, norms, tolerances, iteration limits", "why_tests_cant": "Depends on the order of writing the initial values and evaluating the residual in the first iteration.", "anchors": ["tools/miLinearAlgebra/nonlinearSystem/solve/NewtonRaphson/regular.py", "tools/miLinearAlgebra/nonlinearSystem/customize.py"]}
{"id": "C108", "title": "Local numberings of triangles are one to one", "statement": "On the reference triangle (a square with one side collapsed to a node) the local numbers of nodes, segments and faces of a polynomial space of degree p are one to one and gap free for inner and outer forms; the nodes of the collapsed side share one number, its segments have none (-1); the local dofs on the three element edges are exactly those lying on them.", "quantifier": "all degrees p, both orientations, all three edges", "why_tests_cant": "The tests use p up to 4.", "anchors": ["objects/miUsGrid/triangular/space/local_numbering.py", "objects/miUsGrid/triangular/space/num_basis.py", "objects/miUsGrid/triangular/forms/standard/base/numbering/do/find.py"]}
{"id": "C109", "title": "Incidence matrices of triangles are boundary operators", "statement": "The incidence matrices E10 and E21 of the triangular space, inner and outer, have the entry of the boundary operator for every pair of segment and node, and face and segment, in spite of the writes to collapsed positions; the product of both is 0.", "quantifier": "all degrees p, both orientations, all rows and columns", "why_tests_cant": "Entries are written in loops over positions of which some are collapsed or written twice; a test of E21 E10 = 0 alone misses consistent errors.", "anchors": ["objects/miUsGrid/triangular/space/incidence_matrix.py"]}
{"id": "C110", "title": "The element map of a triangular mesh tells the neighbours", "statement": "The constructor turns all cells counterclockwise or stops at a flat one; for triangles that do not overlap the element map names at every edge the only other cell with this edge, its edge number, and whether the directions agree, and the neighbour answers with the same sign; an edge without neighbour gets the name of the only boundary condition that holds at both its ends, and the construction fails if that is not unique.", "quantifier": "all lists of points with real coordinates, cells and boundary conditions", "why_tests_cant": "Depends on the order of the vertices of both cells (all 36 pairs) and on the order of the cells; the tests load a few vtu files.", "anchors": ["objects/miUsGrid/triangular/mesh/construct/main.py", "objects/miUsGrid/triangular/mesh/boundaries/main.py"]}
{"id": "C111", "title": "Gathering of 0-forms on triangles identifies exactly the shared nodes", "statement": "The naive numbering of 0-forms gives the numbers 0..n-1 without gaps, and two local dofs get the same number exactly if they are the same mesh vertex, the same point of a shared edge (counted from the other end if the directions differ), or the same inner dof of the same element.", "quantifier": "all meshes of triangles that do not overlap, all degrees p", "why_tests_cant": "Orientation dependent flips of shared edges for all combinations of edges and directions.", "anchors": ["objects/miUsGrid/triangular/forms/standard/base/numbering/Naive.py", "objects/miUsGrid/triangular/forms/standard/base/numbering/main.py"]}
{"id": "C112", "title": "Gathering of 1- and 2-forms on triangles identifies exactly the shared segments", "statement": "The same for the segments of inner and outer 1-forms; faces of 2-forms get distinct gap free numbers.", "quantifier": "all meshes of triangles that do not overlap, all degrees p, both orientations", "why_tests_cant": "As for C111; inner and outer forms number in different orders.", "anchors": ["objects/miUsGrid/triangular/forms/standard/base/numbering/Naive.py"]}
{"id": "C113", "title": "The signs of the transition matrices make coboundaries single valued and conservative", "statement": "With the signs of the transition matrices the coboundary of a 0-form with global dofs has the same value in both elements at each shared segment; the columns of the second incidence matrix of two elements cancel at each shared segment (what leaves one element enters the other), sum to 0 inside elements and do not at their sides; the coboundary of a coboundary is 0.", "quantifier": "all meshes of triangles that do not overlap, all degrees p, both orientations, all 0-forms", "why_tests_cant": "A wrong sign shows only for certain pairs of edge numbers; with p = 1 and few elements most of the nine pairs and both directions never occur.", "anchors": ["objects/miUsGrid/triangular/forms/standard/_1/inner/IDT.py", "objects/miUsGrid/triangular/forms/standard/_1/outer/IDT.py", "objects/miUsGrid/triangular/forms/standard/_1/base/IDT.py", "objects/miUsGrid/triangular/forms/standard/base/coboundary.py"]}
{"id": "C114", "title": "The element transformation maps the square one to one onto the triangle", "statement": "The coordinate transformation of a triangular element collapses one side of the reference square to the first corner, follows the three sides of the triangle with the others at constant speed, maps the open square one to one onto the inside of the triangle, has the coded matrix of derivatives, whose determinant is (s+1)/8 times twice the signed area, and off the collapsed side the coded inverse and metric matrices are inverses; on the collapsed side no inverse exists.", "quantifier": "all triangles with real corners, all reference points", "why_tests_cant": "The tests compare at some random points of some meshes.", "anchors": ["objects/miUsGrid/triangular/mesh/elements/element/coordinate_transformation/main.py", "objects/CSCG/_2d/mesh/domain/regions/region/interpolations/transfinite/mapping.py"]}
{"id": "C115", "title": "Discretization on triangles commutes with the incidence matrices", "statement": "The dofs of discretized 0-, inner and outer 1-, and 2-forms on a triangle are values at the nodes, integrals along the segments (with the sign of the transition matrix) and integrals over the faces, in the order of the local numbering with the collapsed node counted once and the collapsed segments dropped; the incidence matrices with transition signs applied to the dofs give the dofs of the gradient or rotated gradient, of the rotation or the divergence.", "quantifier": "all triangles, degrees p, node sets from -1, quadrature rules that are exact for the functions at hand, side marks, scalar and vector fields with derivatives", "why_tests_cant": "Commutation holds up to quadrature errors; tests use tolerances and a few fields.", "anchors": ["objects/miUsGrid/triangular/forms/standard/_0/base/discretize/scalar/standard.py", "objects/miUsGrid/triangular/forms/standard/_1/outer/discretize/vector/standard.py", "objects/miUsGrid/triangular/forms/standard/_1/inner/discretize/vector/standard.py", "objects/miUsGrid/triangular/forms/standard/_2/base/discretize/scalar/standard.py"]}
{"id": "C116", "title": "Discretized forms have one value at each global dof of a triangular mesh", "statement": "Two local dofs with the same global number get the same value when a scalar is discretized to a 0-form or a vector to an inner or outer 1-form, whatever the order and direction of the vertices of the two elements, if nodes and quadrature are symmetric and the rule is the same in both directions; with different rules in the two directions this fails.", "quantifier": "all meshes of triangles that do not overlap, all degrees p, symmetric nodes and rules, all scalars and vectors", "why_tests_cant": "Nine pairs of edge numbers, two directions and two orientations, with signs that must cancel; the values are integrals of arbitrary fields.", "anchors": ["objects/miUsGrid/triangular/forms/standard/_1/outer/discretize/vector/standard.py", "objects/miUsGrid/triangular/forms/standard/_1/inner/discretize/vector/standard.py", "objects/miUsGrid/triangular/forms/standard/_1/base/IDT.py", "objects/miUsGrid/triangular/forms/standard/base/numbering/Naive.py"]}
{"id": "C117", "title": "Reconstruction of forms on triangles", "statement": "The value of a reconstructed 0-form at a point of the grid is the sum of the nodal functions times the values at the nodes, where all nodes of the collapsed side are the first vertex (so the form is constant along that side); reconstructed inner and outer 1-forms and 2-forms are the vectors and scalars whose pull back is the sum of the basis functions of edges and faces, with the signs of the transition; the reconstruction matrices applied to a cochain give the same numbers.", "quantifier": "all bases, grids, cochains, side marks, Jacobian matrices that are regular at the points", "why_tests_cant": "Index and block layout for every degree, orientation and transition type; tests look at some norms.", "anchors": ["objects/miUsGrid/triangular/space/evaluation.py", "objects/miUsGrid/triangular/forms/standard/base/do.py", "objects/miUsGrid/triangular/forms/standard/_0/base/reconstruct/main.py", "objects/miUsGrid/triangular/forms/standard/_1/outer/reconstruct/main.py", "objects/miUsGrid/triangular/forms/standard/_1/inner/reconstruct/main.py", "objects/miUsGrid/triangular/forms/standard/_2/base/reconstruct/main.py"]}
{"id": "C118", "title": "Discretization after reconstruction on triangles is the identity", "statement": "Discretizing the field whose pull back is the reconstructed form gives the cochain back, for 0-, inner and outer 1-, and 2-forms.", "quantifier": "all bases with their nodes from -1 to 1, all triangles, cochains, side marks, rules exact for the basis", "why_tests_cant": "Holds for every cochain; tests use smooth functions and tolerances.", "anchors": ["objects/miUsGrid/triangular/forms/standard/_0/base/discretize/scalar/standard.py", "objects/miUsGrid/triangular/forms/standard/_1/outer/discretize/vector/standard.py", "objects/miUsGrid/triangular/forms/standard/_1/inner/discretize/vector/standard.py", "objects/miUsGrid/triangular/forms/standard/_2/base/discretize/scalar/standard.py", "objects/miUsGrid/triangular/space/evaluation.py"]}
{"id": "C119", "title": "Incidence matrices are the derivatives of reconstructed forms on triangles", "statement": "The incidence matrix applied to the cochain of a 0-form gives the cochain of the gradient (inner) or rotated gradient (outer) of the reconstructed form, that applied to the cochain of a 1-form the cochain of the rotation (inner) or the divergence (outer), everywhere inside the cell.", "quantifier": "all bases, elements with second derivatives, side marks, cochains", "why_tests_cant": "Signs of transitions enter the basis and the incidence matrix separately and must agree.", "anchors": ["objects/miUsGrid/triangular/space/incidence_matrix.py", "objects/miUsGrid/triangular/space/evaluation.py", "objects/miUsGrid/triangular/forms/standard/base/do.py"]}
{"id": "C120", "title": "Mass matrices and energies of forms on triangles", "statement": "The inner product matrices are the quadratures over the cell of the products of the reconstructed forms, the cross blocks with the right metric entries, for two forms or one; mass matrices are symmetric and, if the weights are positive, the points determine the polynomials and the Jacobian is positive, positive definite; the coded energies are the quadratures of powers and the second energy is the quadratic form of the mass matrix.", "quantifier": "all bases, rules, side marks, regular Jacobian matrices, cochains", "why_tests_cant": "Two orientations, four blocks with transposes taken from the other block; random tests with one degree do not show positivity.", "anchors": ["objects/miUsGrid/triangular/forms/standard/_0/base/matrices/helpers/inner.py", "objects/miUsGrid/triangular/forms/standard/_1/outer/matrices/helpers/inner.py", "objects/miUsGrid/triangular/forms/standard/_1/inner/matrices/helpers/inner.py", "objects/miUsGrid/triangular/forms/standard/_2/base/matrices/helpers/inner.py", "objects/miUsGrid/triangular/forms/standard/base/do.py"]}
{"id": "C121", "title": "Reconstructed forms are conforming on triangular meshes", "statement": "At every point of a side shared by two cells the reconstructed 0-forms of the two cells have the same value, inner 1-forms the same component along the side and outer 1-forms the same component through it, whatever the global values at the numbered dofs and whatever pair of sides of the two cells meet, in whatever direction.", "quantifier": "all meshes of triangles that do not overlap, all degrees, symmetric nodes and bases, global vectors, points of the sides", "why_tests_cant": "Nine pairs of sides in two directions, the signs of transitions and numbering must cancel for each; tests use one or two meshes.", "anchors": ["objects/miUsGrid/triangular/forms/standard/base/numbering/Naive.py", "objects/miUsGrid/triangular/forms/standard/_1/outer/IDT.py", "objects/miUsGrid/triangular/space/evaluation.py", "objects/miUsGrid/triangular/forms/standard/base/do.py"]}
{"id": "C122", "title": "Numerical partial derivatives of fields", "statement": "The numerical derivative of a field along any of its axes differs from the derivative by at most m h^2/6 where m bounds the third derivative along the axis and h is 1e-6; on a cubic it is off by exactly the leading coefficient times h^2. The checks of user formulas accept exactly when all absolute errors, or all relative errors, are below 1e-5, so an accepted formula is near the true derivative at every checked point.", "quantifier": "all fields with three derivatives along the axis, all points, all lists of checked points", "why_tests_cant": "The error bound is about every smooth function; tests look at some.", "anchors": ["components/numerical/timePlus3dSpace/partial_derivative.py", "components/numerical/timePlus2dSpace/partial_derivative.py"]}
{"id": "C123", "title": "Vector operators on 3D fields", "statement": "Gradient, time derivative, divergence, curl and convection of fields succeed exactly for plain functions with four arguments and methods with five, and then are the usual expressions in the central differences along the axes; whatever the function, the curl of its gradient is exactly zero and time derivative and gradient commute.", "quantifier": "all callables, all points", "why_tests_cant": "The 3x3 index pattern of a curl is easy to get wrong in one place for which a test function has a zero derivative.", "anchors": ["components/numerical/timePlus3dSpace/partial_derivative_as_functions.py", "components/functions/timePlus3dSpace/wrappers/scalar.py", "components/functions/timePlus3dSpace/wrappers/vector.py"]}
{"id": "C124", "title": "Results of vector operators can be differentiated again (3D)", "statement": "Expected: any computed 3D scalar or vector can be passed to the operators again, e.g. the divergence of a curl is computed and is zero. Refuted: the result of a sum, difference, product, dot or cross product, divergence, curl or convection has components of a kind for which every derivative raises NotImplementedError, for all inputs.", "quantifier": "all callables", "why_tests_cant": "Tests compose only gradients and time derivatives.", "anchors": ["components/numerical/timePlus3dSpace/partial_derivative_as_functions.py", "components/functions/timePlus3dSpace/wrappers/scalar.py", "components/functions/timePlus3dSpace/wrappers/vector.py"]}
{"id": "C125", "title": "Vector operators on 2D fields", "statement": "In 2D every operator applied to a function, a method or the result of another operator succeeds and gives the usual expression in the central differences, again an acceptable field; rot of grad and div of curl are exactly zero and rot of curl is minus the divergence of grad.", "quantifier": "all callables, all points", "why_tests_cant": "Holds for all functions exactly, not only up to a tolerance for some.", "anchors": ["components/numerical/timePlus2dSpace/partial_derivative_as_functions.py", "components/functions/timePlus2dSpace/wrappers/scalar.py", "components/functions/timePlus2dSpace/wrappers/vector.py"]}
{"id": "C126", "title": "Pointwise algebra of vector fields", "statement": "The dot product is the inner product; the cross product is the vector whose inner product with any third vector is the determinant; it is orthogonal to its factors, antisymmetric, and satisfies the Lagrange and the triple product identity; sums, differences and negatives are componentwise.", "quantifier": "all vector fields, all points", "why_tests_cant": "Sign errors in one component are invisible on special vectors.", "anchors": ["components/functions/timePlus3dSpace/wrappers/vector.py"]}
{"id": "C127", "title": "Body force of 3D Navier-Stokes and Stokes solutions", "statement": "For every flow whose derivative methods are the derivatives of its components, the computed body force satisfies the momentum equation in convective form (although it is computed in rotational form), the vorticity is the curl of the velocity and has no divergence, the total pressure methods are the gradient of the total pressure, and the field called curl of the vorticity is it up to the gradient of the divergence of the velocity; the Stokes force is grad p minus the Laplacian; helicity and enstrophy densities are u.curl(u) and |curl(u)|^2/2.", "quantifier": "all differentiable velocity and pressure fields, all viscosities, all points", "why_tests_cant": "Holds for all flows; a sign error in one term vanishes on the few flows shipped (many derivatives are zero).", "anchors": ["objects/CSCG/_3d/exactSolutions/incompressibleNavierStokes/base.py", "objects/CSCG/_3d/exactSolutions/Stokes/base.py"]}
{"id": "C128", "title": "Sources of the MHD solutions", "statement": "The MHD momentum source is the left hand side of the documented equation minus 1/Rf times the gradient of the divergence of the velocity, exactly in the numerical derivatives used; so it is the documented one for AS2 and MHD_SinCos1, whose velocity, magnetic field and electric source have exactly zero numerical divergence, and it is not for AS1. The current is the curl of B, and the electric source is the left hand side of the documented induction equation, PB/Pt plus the curl of j/Rm minus u x B, component by component. The divergence of the electric source is the time derivative of the divergence of B. Reynolds numbers are accepted exactly when positive or 'infty', and the viscosity and magnetic diffusivity are then one over them, or zero.", "quantifier": "all fields, all points, all Reynolds numbers", "why_tests_cant": "The identities hold for the difference quotients of every function, exactly.", "anchors": ["objects/CSCG/_3d/exactSolutions/incompressibleMHD/base.py", "objects/CSCG/_3d/exactSolutions/incompressibleMHD/analytic_solution_1.py", "objects/CSCG/_3d/exactSolutions/incompressibleMHD/analytic_solution_2.py", "objects/CSCG/_3d/exactSolutions/incompressibleMHD/analytic_solution_3.py", "objects/CSCG/_3d/exactSolutions/incompressibleMHD/sin_cos.py"]}
{"id": "C129", "title": "Body force of 2D Navier-Stokes and Euler solutions", "statement": "For every 2D flow with right derivatives the computed body force is the convective momentum residual plus viscosity times the gradient of the divergence (hence the Navier-Stokes force for incompressible flows); the Euler force satisfies the Euler equations; the 2D Taylor-Green vortex has zero body force for every viscosity; the vorticity and total pressure the objects make are the usual ones, and the palinstrophy density is half the squared gradient of the vorticity.", "quantifier": "all differentiable fields, viscosities, points", "why_tests_cant": "A test of a force near zero passes with compensating errors at a few points.", "anchors": ["objects/CSCG/_2d/exactSolutions/incompressibleNavierStokes/base.py", "objects/CSCG/_2d/exactSolutions/Euler/base.py", "objects/CSCG/_2d/exactSolutions/incompressibleNavierStokes/Taylor_Green_vortex.py", "objects/miUsGrid/triangular/exactSolution/dimensionlessIncompressibleNavierStokes/base.py"]}
{"id": "C130", "title": "Sources of Poisson, wave, Schroedinger, Laplace and Stokes solutions", "statement": "The source terms are minus the Laplacian (Poisson), second time derivative minus Laplacian (wave), the Laplacian (2D Laplace); the Schroedinger source is the Laplacian exactly for solutions of the equation with hbar^2/2m, and the shipped potential is one; the shipped cases have the expected sources in closed form.", "quantifier": "all differentiable fields, all constants, all points", "why_tests_cant": "Quantifies over all functions and constants.", "anchors": ["objects/CSCG/_3d/exactSolutions/Poisson/base.py", "objects/CSCG/_3d/exactSolutions/Poisson/Sin_Cos.py", "objects/CSCG/_3d/exactSolutions/wave_equations/base.py", "objects/CSCG/_3d/exactSolutions/wave_equations/analytical_solution1.py", "objects/CSCG/_3d/exactSolutions/timeIndependentSchrodingerEquation/base.py", "objects/CSCG/_3d/exactSolutions/timeIndependentSchrodingerEquation/sin_cos_1.py", "objects/CSCG/_3d/exactSolutions/Stokes/sin_cos_1.py", "objects/CSCG/_2d/exactSolutions/scalarLaplace/base.py", "objects/CSCG/_2d/exactSolutions/scalarLaplace/SinCos.py", "objects/miUsGrid/triangular/exactSolution/Stokes/sin_cos_1.py"]}
{"id": "C131", "title": "Hand-written derivatives of exact solutions", "statement": "Every derivative written by hand in SinCosRebholz_Conservation, SinCosRebholz_Dissipation, SinCos_Modified_Dissipation and TGV1 is the derivative of its field at every point and time, and the velocities (and AS2's and Stokes' fields) have no divergence.", "quantifier": "all points, times, viscosities, lengths L and speeds V0", "why_tests_cant": "The runtime checks compare at random points with tolerance 1e-5.", "anchors": ["objects/CSCG/_3d/exactSolutions/incompressibleNavierStokes/Sin_Cos.py", "objects/CSCG/_3d/exactSolutions/incompressibleNavierStokes/Taylor_Green_vortex.py", "objects/CSCG/_3d/exactSolutions/incompressibleMHD/analytic_solution_2.py", "objects/CSCG/_3d/exactSolutions/Stokes/sin_cos_1.py"]}
{"id": "C132", "title": "Dipole collision and flow round a cylinder", "statement": "Expected: an accepted dipole has omega = v_x - u_y; only sides of [-1,1]^2 pass the outline check; the channel has positive lengths; the boundary velocity is the inlet velocity at the inlet and zero on the walls. Refuted: the sign of omega is wrong exactly for we1 < 0, outlines longer than the square pass, inlet and outlet lengths are not checked, and every channel has wall points with the inlet velocity.", "quantifier": "all parameters, points and outlines", "why_tests_cant": "The default parameters are the only ones tested.", "anchors": ["objects/CSCG/_2d/exactSolutions/incompressibleNavierStokes/dipole_collision.py", "objects/CSCG/_2d/exactSolutions/incompressibleNavierStokes/flow_round_cylinder.py", "objects/CSCG/_2d/mesh/domain/inputs/cic.py"]}
{"id": "C133", "title": "Piecewise functions and the shear layer", "statement": "genpiecewise gives at each point the value of the last function whose condition holds, the default function (or the fill value) if none holds, and raises exactly for wrong lengths; the initial velocity of the shear layer built with it is continuous everywhere, periodic and without divergence.", "quantifier": "all condition and function lists, all points, all parameters", "why_tests_cant": "Overlapping conditions and the joint of the pieces are not tested.", "anchors": ["components/miscellaneous/generalized_piecewise_function.py", "objects/CSCG/_2d/exactSolutions/Euler/shear_layer_rollup.py"]}
{"id": "C134", "title": "Discretization of 2-traces", "statement": "The 2-trace cochain of a vector field on a side of an element consists of the integrals of its flux over the faces of the side; it is the part of the cochain of the 2-form that belongs to the side, so the trace matrix times the cochain of the 2-form is the cochain of the outward flux, side by side. The cochain of a scalar consists of its area integrals over the faces. Discretizing from either of the two elements sharing the trace element gives the same cochain.", "quantifier": "all maps with nonzero area elements on the sides, all degrees and nodes from -1 to 1, all quadrature rules, fields, sides", "why_tests_cant": "The two discretizations are independent code with different metric computations; tests compare them for one field on one mesh, up to a tolerance.", "anchors": ["objects/CSCG/_3d/forms/trace/_2tr/discretize/scalar/standard.py", "objects/CSCG/_3d/forms/trace/_2tr/discretize/vector/standard.py", "objects/CSCG/_3d/forms/trace/_2tr/discretize/main.py"]}
{"id": "C135", "title": "Discretization of 0-traces", "statement": "The 0-trace cochain of a scalar is the part of the cochain of its 0-form that belongs to the side, and the trace matrix times the cochain of the 0-form gives the signed cochains of the six sides; the cochain of a vector consists of the values of its component normal to the side (towards the increasing coordinate).", "quantifier": "all maps, degrees, nodes from -1 to 1, fields, sides", "why_tests_cant": "As C134.", "anchors": ["objects/CSCG/_3d/forms/trace/_0tr/discretize/scalar/standard.py", "objects/CSCG/_3d/forms/trace/_0tr/discretize/vector/standard/flux.py", "objects/CSCG/_3d/forms/trace/_0tr/discretize/main.py"]}
{"id": "C136", "title": "Reconstruction of trace forms", "statement": "The reconstructed values of a 0-trace are those of the function with the given nodal values, the values of a 2-trace times the area element are those of the function with the given fluxes; at the points of a side a 0-form has the value, and a 2-form the normal component, of the trace reconstructed from the part of its cochain on the side.", "quantifier": "all bases, cochains, grids, Jacobian matrices with nonzero area element, sides", "why_tests_cant": "Quantifies over all cochains and bases.", "anchors": ["objects/CSCG/_3d/forms/trace/_0tr/main.py", "objects/CSCG/_3d/forms/trace/_2tr/main.py", "objects/CSCG/_3d/spaces/base/do.py"]}
{"id": "C137", "title": "Mass matrices of trace forms, and discretization after reconstruction", "statement": "The mass matrices of 0- and 2-traces give the quadrature of the product of the reconstructed values over the side by its area; they are symmetric, and positive definite for positive weights and enough quadrature points. Discretizing a field with the values of a reconstructed trace gives back its cochain.", "quantifier": "all bases, quadrature rules, Jacobian matrices, cochains, sides", "why_tests_cant": "Quantifies over all cochains and metrics.", "anchors": ["objects/CSCG/_3d/forms/trace/_0tr/main.py", "objects/CSCG/_3d/forms/trace/_2tr/main.py"]}
{"id": "C138", "title": "Cochains of dual forms", "statement": "The cochain of an algebraic dual form is that of its prime through the mass matrix: setting it accepts exactly the dicts with a cochain of the right length for every element, reading then gives what was set, and setting what was read leaves the prime as it was; setting a locally full vector gives every element its entries. The setter of a dual trace form for distributed vectors never succeeds.", "quantifier": "all sets of elements, mass matrices with given inverses, cochains, gathering matrices", "why_tests_cant": "Quantifies over all states of the prime form and all inputs to the setter.", "anchors": ["objects/CSCG/_3d/ADF/standard/base/cochain/main.py", "objects/CSCG/_3d/ADF/standard/base/cochain/local.py", "objects/CSCG/_3d/ADF/trace/base/cochain/main.py", "objects/CSCG/_3d/ADF/trace/base/cochain/local.py"]}
{"id": "C139", "title": "The coboundary of dual forms", "statement": "The coboundary of a dual k-form is defined for k = 1, 2, 3 with a dual trace (k-1)-form. Its result is the one cochain whose pairing with every (k-1)-cochain v is the pairing of the derivative of v with the dual cochain, up to sign, plus the pairing of the outward trace of v with the dual trace cochain: discrete integration by parts. Constants give zero, the sum of the dual divergence is the sum over the boundary, and applied twice the result depends on the trace cochains only.", "quantifier": "all degrees, elements, cochains", "why_tests_cant": "The signs of six matrices per kind of form must agree with each other; a wrong sign shows only in formulations that use the form.", "anchors": ["objects/CSCG/_3d/ADF/standard/base/coboundary.py", "objects/CSCG/_3d/ADF/trace/base/coboundary.py"]}
{"id": "C140", "title": "Dual forms as fields", "statement": "With the mass matrices of the forms and of the six sides, the prime of the dual coboundary of a dual 3-form is the weak gradient, and that of a dual 1-form the weak divergence, by quadrature over the element and its six sides with outward normals. The mass matrix of a trace element is the same from either of its elements, and the element-wise mass matrix of a dual trace form consists of those of the six sides of the element.", "quantifier": "all bases, quadrature rules, Jacobian matrices, cochains, test functions, numbers and kinds of elements", "why_tests_cant": "Relates three mass matrices, the incidence and the trace matrix for all cochains.", "anchors": ["objects/CSCG/_3d/ADF/standard/base/coboundary.py", "objects/CSCG/_3d/ADF/trace/base/main.py", "objects/CSCG/base/ADF/base/main.py"]}
{"id": "C141", "title": "Trace cochains by element and by trace element", "statement": "The two forms of a trace cochain, hybrid or not, describe the same values: setting values on trace elements gives vectors to exactly the elements with all sides given, with these values on their sides; reading the values of trace elements after setting vectors takes them from places of the trace element; for vectors that agree on common trace elements (sides that agree on shared dofs) both round trips are the identity, and for hybrid forms only then.", "quantifier": "all degrees, meshes, cores, cochains, hybrid and non-hybrid", "why_tests_cant": "All cochains and all states of the object; tests set cochains that come from functions and so agree.", "anchors": ["objects/CSCG/base/forms/trace/cochain/main.py", "objects/CSCG/_3d/forms/trace/base/cochain.py", "components/distributors.py", "components/assemblers.py"]}
{"id": "C142", "title": "2D reconstruction evaluates the field of the cochain", "statement": "Reconstructed 0-, inner and outer 1- and 2-forms on a 2D structured mesh are, at every point of the grid, the field of the cochain: the function (vector) whose pull back to the reference square is the sum of the products of nodal and edge functions, one per cell. Elements marked orthogonal use the short formulas, right when the Jacobian matrix is diagonal. The reconstruction matrices times the cochain give the same values. Vectorized reconstruction gives the values of the elements when the local cochains are stored in the order of the elements, and need not otherwise.", "quantifier": "all degrees, grids, elements, Jacobian matrices, cochains", "why_tests_cant": "Tests compare a few functions with their reconstruction to a tolerance; a wrong off-diagonal term vanishes on orthogonal meshes, a wrong order of elements on one core vanishes for dicts filled in order.", "anchors": ["objects/CSCG/_2d/spaces/base/do.py", "objects/CSCG/_2d/forms/standard/_1_form/outer/reconstruct.py", "objects/CSCG/_2d/forms/standard/_1_form/inner/reconstruct.py", "objects/CSCG/_2d/forms/standard/_1_form/outer/main.py", "objects/CSCG/_2d/forms/standard/_1_form/inner/main.py", "objects/CSCG/_2d/forms/standard/_0_form/base/reconstruct.py", "objects/CSCG/_2d/forms/standard/_2_form/base/reconstruct.py"]}
{"id": "C143", "title": "2D discretization inverts reconstruction", "statement": "Discretizing on an element the field of a cochain of a 0-, inner 1-, outer 1- or 2-form gives the cochain back, for quadrature rules that are exact for the edge functions.", "quantifier": "all degrees, elements, maps, cochains", "why_tests_cant": "A projection property over all cochains of all degrees and all element shapes.", "anchors": ["objects/CSCG/_2d/forms/standard/_1_form/outer/reconstruct.py", "objects/CSCG/_2d/forms/standard/_1_form/inner/reconstruct.py", "objects/CSCG/_2d/forms/standard/_0_form/base/reconstruct.py", "objects/CSCG/_2d/forms/standard/_2_form/base/reconstruct.py", "objects/CSCG/_2d/spaces/base/do.py"]}
{"id": "C144", "title": "2D inner products, wedge products and energies", "statement": "The inner product matrices of 2D forms hold the quadratures of the products of the reconstructed fields times the Jacobian; mass matrices are symmetric and, for rules with positive weights and enough points, positive definite. The wedge matrices of 2- with 0-forms and of 1-forms of opposite orientation hold the integrals of the products without using the metric; of 1-forms of the same orientation they do not hold the wedge product. The Ln energies, vectorized or not, are the sums of the quadratures of the powers of the fields; energies of odd n can vanish for nonzero forms. The L2 energy with another form is the sum of the bilinear forms of the mass matrices.", "quantifier": "all degrees, rules, elements, cochains", "why_tests_cant": "Matrices for all degrees and Jacobians; tests check a few numbers to a tolerance.", "anchors": ["objects/CSCG/_2d/forms/standard/_0_form/base/main.py", "objects/CSCG/_2d/forms/standard/_1_form/outer/main.py", "objects/CSCG/_2d/forms/standard/_1_form/inner/main.py", "objects/CSCG/_2d/forms/standard/_2_form/base/main.py", "objects/CSCG/_2d/forms/standard/base/do.py"]}
{"id": "C145", "title": "2D incidence matrices differentiate reconstructed forms", "statement": "On a 2D element with a differentiable map, the incidence matrices applied to the cochain of a reconstructed form give the cochain whose field is the gradient (0 to inner 1), the rotated gradient (0 to outer 1), the rotation (inner 1 to 2) or the divergence (outer 1 to 2) of the form.", "quantifier": "all degrees, maps with mixed derivatives, cochains", "why_tests_cant": "Exact derivatives at all points for all cochains; tests compare with finite tolerance for one mesh.", "anchors": ["objects/CSCG/_2d/spaces/base/incidence_matrix.py", "objects/CSCG/_2d/forms/standard/_1_form/outer/reconstruct.py", "objects/CSCG/_2d/forms/standard/_1_form/inner/reconstruct.py", "objects/CSCG/_2d/forms/standard/_2_form/base/reconstruct.py"]}
{"id": "C146", "title": "L^n errors of forms", "statement": "The L^n error of a 2D, 3D or triangular form is the n-th root of the sum, over the elements of all cores, of the quadratures of the n-th powers of the differences of the components of the field of the cochain and the exact field. It does not depend on how elements are spread over cores. For even n and positive Jacobians and weights it is a number, and it vanishes iff the exact field agrees with the form at all points of the quadrature; in particular for discretizations of fields of the space. For odd n it can vanish for different fields and can fail to be a number.", "quantifier": "all degrees, rules, elements, cochains, exact fields, distributions over cores, n", "why_tests_cant": "Tests compute errors of a few fields on one mesh; signs of odd powers and distributions over other numbers of cores are not seen.", "anchors": ["objects/CSCG/_2d/forms/standard/base/error.py", "objects/CSCG/_3d/forms/standard/base/error.py", "objects/miUsGrid/triangular/forms/standard/base/error.py"]}
{"id": "C147", "title": "L-infinity and H errors, errors up to constants", "statement": "The L-infinity error of a 3D form is the greatest difference of a component at a node of an element of any core; without elements there is none. Its nodes are the midpoints of n equal intervals, n the integer nearest to the cube root of the density per element, and 3 if that root is below 1, so that a greater density can give fewer nodes. The square of the H error is the sum of the squares of the errors of the form and its derivative. With upon=True the error would not change when constants are added to the form, but the branch reads an attribute that forms do not have and always fails.", "quantifier": "all forms, meshes, densities, distributions over cores", "why_tests_cant": "No test calls the upon branch; maxima over cores with no elements depend on the distribution.", "anchors": ["objects/CSCG/_2d/forms/standard/base/error.py", "objects/CSCG/_3d/forms/standard/base/error.py", "objects/CSCG/base/forms/base/main.py"]}
{"id": "C148", "title": "Arithmetic of forms", "statement": "a + b and (in 3D and on triangles) a - b of forms of one class, mesh and space with cochains on all elements is a form of that class, mesh and space whose cochain on each element is the entrywise sum or difference; r * a is the entrywise multiple, with the options of a. Sums commute, associate, undo differences, and multiples distribute over them; in 2D, which has no difference, a + (-1) * b gives it. Forms of other classes, meshes or spaces, or without cochain on some element, are refused. Orientation and hybridity are not compared: 2D/3D results take the options of the left form, so that options depend on the order, and sums of hybrid triangular forms are not hybrid.", "quantifier": "all classes, meshes, spaces, options, cochains, numbers", "why_tests_cant": "Tests add a few forms with equal options; the options of the result and forms of different options are not tried.", "anchors": ["objects/CSCG/_3d/forms/base.py", "objects/CSCG/_2d/forms/base.py", "objects/miUsGrid/triangular/forms/standard/base/main.py"]}
{"id": "C149", "title": "Fields of combined forms", "statement": "The field of a cochain that is a linear combination of two cochains is the same linear combination of their fields at each point, and the field of a multiple is the multiple, for 2D structured, triangular and 3D forms of every degree; so a + b, a - b and r * a of C148 are the sum, difference and multiple of the fields.", "quantifier": "all degrees, spaces, cochains, coefficients, Jacobians, points", "why_tests_cant": "A test sees particular fields at particular points.", "anchors": ["objects/CSCG/_3d/forms/base.py", "objects/CSCG/_2d/forms/base.py", "objects/miUsGrid/triangular/forms/standard/base/main.py", "objects/CSCG/_3d/forms/standard/base/main.py"]}
{"id": "C150", "title": "Cross products in the plane", "statement": "The array that the inner products with cross products of a scalar form w and a vector form u make for an element, applied to the cochains of w, u and e, is the quadrature of (w x u) . e of their fields, for w of degree 0 or 2, u and e inner or outer, on structured elements and on triangles. The matrices for given w and for given u have the numbers of dofs and are those of the integral. For u and e of one space the matrix for given w is skew. For a 0-form and two vectors of one orientation the array does not depend on the metric of the element.", "quantifier": "all spaces, rules, regular elements, orientations, cochains", "why_tests_cant": "Tests contract the arrays for a few fields on one mesh; signs and orders of indices can cancel for symmetric fields.", "anchors": ["objects/CSCG/_2d/forms/standard/_0_form/outer/special/helpers/cross_product_1_i_1.py", "objects/CSCG/_2d/forms/standard/_0_form/outer/special/helpers/cross_product_1_i_1_2M0.py", "objects/CSCG/_2d/forms/standard/_2_form/inner/special/helpers/cross_product_1_i_1.py", "objects/miUsGrid/triangular/forms/standard/_0/base/do/helpers/_0x1_ip_1.py"]}
{"id": "C151", "title": "Caches of triangular forms", "statement": "Whatever sequence of cells is asked for, the mass matrices that triangular forms take from the cache by shape indicator and signs of edges are those of the cell asked for, if cells with equal indicators are translates, as they are when all coordinates have four decimals; for finer meshes a cell can get the matrix of a cell of another size. Cached cross products are right for cells of all shapes if u and e have one orientation; with different orientations a cell can get an array with wrong signs.", "quantifier": "all meshes, sequences of requests, degrees, rules", "why_tests_cant": "Tests use meshes of size one, where the indicators tell; whether a cache is hit with a wrong entry depends on the order of requests.", "anchors": ["objects/miUsGrid/triangular/mesh/elements/element/main.py", "objects/miUsGrid/triangular/mesh/elements/main.py", "objects/miUsGrid/triangular/forms/standard/base/main.py", "objects/miUsGrid/triangular/forms/standard/_0/base/do/helpers/_0x1_ip_1.py"]}
{"id": "C152", "title": "Projections of 3D 1- and 2-forms", "statement": "vector_of_3_standard_0forms gives the three 0-forms whose cochains are the discretizations of the components of the vector field of the form. standard_2form gives the 2-form whose inner products with all 2-forms of its space are those of the 1-form; if the field of the 1-form is the field of a 2-form of the space, the result is that 2-form.", "quantifier": "all degrees, elements with regular Jacobian matrices, rules, cochains, inverses of the mass matrix", "why_tests_cant": "No test calls the projections; the 0-form ones raise AttributeError as written.", "anchors": ["objects/CSCG/_3d/forms/standard/_1s/project/to.py", "objects/CSCG/_3d/forms/standard/_2s/project/to.py"]}
{"id": "C153", "title": "Vortex detection of 3D 1- and 2-forms", "statement": "Row i of the tensor that vortex detection reconstructs is the gradient of component i of the field, at all points inside the element, when the components are functions of 0-forms. S and Omega are its only splitting into a symmetric and a skew tensor. lambda_2 is the middle one of the three eigenvalues. Q is the second invariant of the gradient and lambda_2 the middle eigenvalue of S^2 + Omega^2: this fails, since the code squares the entries; Q is then minus half of the sum of the squares of the diagonal, never positive, and right iff the mixed products cancel.", "quantifier": "all forms, elements, points inside them, gradient tensors and eigenvalues", "why_tests_cant": "No test calls vortex detection; on gradients without mixed products Q is right.", "anchors": ["objects/CSCG/_3d/forms/standard/_1s/special/vortex_detection.py", "objects/CSCG/_3d/forms/standard/_2s/special/vortex_detection.py"]}
{"id": "C154", "title": "Cochains of local trace forms", "statement": "Setting the cochain by elements gives, by sides, exactly the values of each side; setting it by sides gives the vectors of the elements with all six sides, with these values if sides agree where they share a dof; there and back is the identity. After any sequence of settings and readings, also failed ones, on_element_side gives the values that the cochain of the element has on the side. The flag full holds iff the cochain covers the elements: true for the setter by elements; it fails for the setter by sides. Global vectors give and take the entries of the elements by their numbers.", "quantifier": "all local trace forms, hybrid or not, elements, cochains over any ring and sequences of operations", "why_tests_cant": "Tests set cochains by discretization only; they never set by sides or with sides that disagree.", "anchors": ["objects/CSCG/base/forms/localTrace/cochain/main.py", "objects/CSCG/_3d/forms/localTrace/base/cochain/main.py", "objects/CSCG/base/forms/localTrace/cochain/whether.py"]}
{"id": "C155", "title": "Numbering of local trace forms", "statement": "Local trace forms of all degrees have consistent numbers of basis functions and gatherings. A global number belongs to one dof of one element and numbers run from 0 without gaps. The dofs of an element side, by number and by place, and the boundary dofs are those of the side, whatever was asked before: this holds as long as only one of the two functions is used; it fails when both are, since they share a cache with different contents.", "quantifier": "all degrees, local trace forms, elements, sides and sequences of calls", "why_tests_cant": "The clash appears only for hybrid forms when a program calls both functions for one side.", "anchors": ["objects/CSCG/_3d/forms/localTrace/base/numbering/Naive.py", "objects/CSCG/_3d/forms/localTrace/base/numbering/main.py", "objects/CSCG/_3d/forms/localTrace/base/numbering/do/find.py", "objects/CSCG/_3d/spaces/base/num_basis.py"]}
{"id": "C156", "title": "Cells of triangular meshes for vtk", "statement": "The quadratic triangles written for vtk have the corners and the middles of the sides of the elements in the order of vtk; the number of a point is the same in all elements that have it and different from that of any other point, numbers run from 0 without gaps, and gathering sends the values at the nodes of global_indices to the numbers of their points. The triangles and quads of degree p are the cells of the grids of the elements, with matching offsets and types, by the numbers of 0-forms of degree p; the gathering is that of 0-forms. After any sequence of requests the data are those of the degree requested.", "quantifier": "all triangular meshes, degrees and sequences of requests", "why_tests_cant": "Files are looked at by eye for a few meshes; a wrong number shows only where two elements meet in a way that the mesh at hand does not have.", "anchors": ["objects/miUsGrid/triangular/mesh/miscellaneous/main.py"]}
{"id": "C157", "title": "Areas, angles and quality of triangles", "statement": "The area of an element is half the cross product of two sides, for any points. The area of the domain is the sum over all elements, however they are distributed over cores, and each element has positive area. The angles of a triangle of distinct points are the angles between its sides, add up to 180 degrees, and do not exist iff two points coincide. The quality is between 0 and 1; it is 1 exactly for equilateral and 0 exactly for flat triangles.", "quantifier": "all points of the plane, triangular meshes and distributions of elements", "why_tests_cant": "Tests print areas and angles of one mesh; nearly flat triangles and other distributions are not in them.", "anchors": ["objects/miUsGrid/triangular/mesh/elements/element/main.py", "objects/miUsGrid/triangular/mesh/domain/main.py", "components/functions/_2dSpace/angles_of_triangle.py", "components/functions/_2dSpace/distance.py"]}
{"id": "C158", "title": "Types of straight 2D regions", "statement": "Two lines are found parallel iff they point in the same direction. A region with straight sides is chaotic iff opposite sides have different lengths; otherwise it is a parallelogram of positive orientation, or an exception is raised, which does not happen for convex regions. The data kept for a parallelogram determine its two sides, so elements with the same data have the same Jacobian matrix. Axis-parallel rectangles are taken for orthogonal, and a region taken for orthogonal has orthogonal sides: the last fails.", "quantifier": "all corners of straight regions and all sizes of elements", "why_tests_cant": "Tests use rectangles and one parallelogram; regions within the tolerance of the angle are not among them.", "anchors": ["objects/CSCG/_2d/mesh/domain/regions/region/types_wrt_metric/transfinite.py", "components/functions/_2dSpace/check_if_two_lines_parallel.py", "components/functions/_2dSpace/angle.py"]}
{"id": "C159", "title": "Types of 3D regions with plane sides", "statement": "A transfinite region is chaotic iff one of its sides is no plane. With six planes it is orthogonal iff its corners are those of an axis-parallel box of positive sizes; the lengths kept are these sizes and the Jacobian matrix of the map is their diagonal matrix at all points. The lengths of an element are those of its image, and orthogonal elements with the same lengths, of whatever regions, are translations of each other. Each region with six plane sides gets a type: this fails, a sheared cube raises.", "quantifier": "all corners of regions, all points and all spacings of elements", "why_tests_cant": "Tests use few boxes; which of all corners are accepted, and that equal types mean equal metrics, is a statement about all regions.", "anchors": ["objects/CSCG/_3d/mesh/domain/regions/region/types_wrt_metric/transfinite.py", "objects/CSCG/_3d/mesh/domain/regions/region/interpolations/transfinite.py", "objects/CSCG/_3d/mesh/domain/regions/region/side_geometries/plane.py"]}
