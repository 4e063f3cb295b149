# Formal model of mifem: design

Source: /repo (mathischeap/mifem, python), read as text only. Prover: Rocq/Coq 8.16.1.

## Trusted base

* Coq's kernel (and `vm_compute`, used for witnesses on literals).
* What `Print Assumptions` reports beneath each property theorem. The aim is
  "Closed under the global context" everywhere; any standard library axiom
  that is used is listed in the section *Assumptions per theorem* below. They are the
  axioms behind the standard library's real numbers (`ClassicalDedekindReals.sig_forall_dec`,
  `ClassicalDedekindReals.sig_not_dec`, `FunctionalExtensionality.functional_extensionality_dep`),
  `Classical_Prop.classic` and `ClassicalEpsilon.constructive_indefinite_description`,
  each only where a theorem's list names it.
* The hand translation of the python functions into Gallina. Every definition of
  a `*Model.v` file cites the file and lines it models, and says what is simplified.
* The semantics given to the libraries (python dict/list, numpy fancy indexing,
  scipy csr/csc formats, MPI point to point messages) as written in the models.

## Conventions

* `XModel.v`: definitions mirroring the code, nothing proved there.
* `XSpec` sections inside the properties files: small independent specifications.
* `XProofs.v`: lemmas.
* `XProps.v`: only the property theorems (`exact lemma`), `Print Assumptions`
  and an `Example` beside each theorem that its hypotheses are met by a
  concrete non-trivial case.
* Python exceptions/assertions are values (`option` or a result type).
* Real/floating point data is replaced by an arbitrary commutative ring or field
  (Section variables, discharged), or by `SpecFloat` binary64 where rounding is the point.
* `BasisModel` is written over mathcomp's `realFieldType` and its polynomials are mathcomp's (no axioms).
* Uninitialised memory (`np.empty`) is an arbitrary function parameter.
* MPI collective calls are pure functions of the vector of per-rank values; point to
  point protocols are transition systems with arbitrary interleaving.
* A property expected to fail in the code is stated in full and its negation is
  proved with a witness (`..._refuted`), next to the part which does hold.

## Plan per property

* **C01 Core grouping is a balanced ordered partition** - GroupModel. The integer arithmetic and list building of GROUP_CORES as a total function with an option for the assertions. Proof by induction on the prefix sums; div/mod bounds for the balance clauses.
* **C02 Reduction tree delivers every contribution to rank 0 exactly once** - TreeModel. The rounds as lists of (receiver, optional sender) rows; a global reduction step that performs the sends/recvs of one round on an array of free-monoid values. Invariant: key number q of a round holds the contributions of ranks between keys q and q+1.
* **C03 CHAINING runs the method in rank order without deadlock** - SchedModel. A small-step transition system: one program counter per rank, one mailbox per ordered pair; invariant over reachable states; progress lemma and a decreasing measure.
* **C04 DISPATCHING executes every task exactly once and terminates** - SchedModel. Transition system for master and slaves with non-deterministic interleaving (any in-flight message may be received with ANY_SOURCE). Invariant relating task list, mailboxes, core status and executed tasks; stuck states are final; measure gives termination.
* **C05 DISPATCHING accepts arbitrary task inputs** - Same transition system with a task equal to the stop string; a reachable stuck non-final state is exhibited (refuted).
* **C06 CHECK_SAME_IN_ALL_CORES passes exactly when all ranks agree** - Gather/bcast as a pure function from the vector of arguments to the vector of outcomes.
* **C07 Local vector assembler sums (or overwrites) per dof** - AssembleModel. dict as association list, numpy fancy += with its last-write semantics.
* **C08 Assembling after distributing is the identity** - AssembleModel. Composition law of distributor and assembler.
* **C09 Local matrix assembler gives the same matrix in every output format** - AssembleModel. csr/csc triples built exactly as coded; entry function of scipy's csr/csc formats as the specification; refutation witness for csc, proof for csr.
* **C10 Offset ('silly') chaining of gathering matrices is injective and gap free** - GatherModel. Prefix sums To_Be_Added and __getitem__.
* **C11 'sequent' chaining is a renumbering of the offset chaining** - GatherModel. Relay renumbering as a fold over cores and elements with the dictionary of already renumbered dofs.
* **C12 Chained numbering lookups agree with exhaustive search** - GatherModel. Local ranges search vs. filter specification.
* **C13 Cached chained gathering matrix is the one asked for** - GatherModel. Cache as an association list bounded to three entries; history theorem for injective stamps; collision witness.
* **C14 Element-wise cached objects return what their generator returns** - EwcModel. State machine of the cache, arbitrary access histories by induction.
* **C15 Operators on element-wise cached matrices are element-wise and cache-transparent** - EwcModel. Composed keys; soundness for operands with sound keys; the non-injective concatenation is a finding.
* **C16 Sum and difference of element-wise cached vectors follow both operands** - EwcModel. Two-access history where the second access returns stale data (refuted).
* **C17 Customizations act on the returned local matrix only** - EwcModel. Customization list applied on top of the cache; invariance of the cache.
* **C18 Assembly is the scatter-sum of the local matrices** - AsmModel. Element-wise matrices over a commutative ring, coordinate lists with flush threshold, per-core assembly, sum over cores.
* **C19 Assembled column vector is the scatter-sum of the local vectors** - AsmModel. Same for vectors.
* **C20 Assembled row customizations do what they say globally** - AsmModel. Customizations per core as coded, theorem on the assembled entries.
* **C21 Assembled vector customization sets one global entry** - AsmModel. Same for set_assembled_V_i_to.
* **C22 set_unknown_to pins the unknown in every solution** - AsmModel. Consequence on the solution set of A x = b.
* **C23 Block matrices and block vectors assemble consistently with the chained numbering** - AsmModel. Block local matrices with chained gathering vectors; equality of assembled entries.
* **C24 Row splitting for tree gathering loses nothing** - LinAlgModel. split_A on row pointers; strictly increasing cut points.
* **C25 Distributed matrix product equals the global product** - LinAlgModel. Sums over cores distribute over the product.
* **C26 Global matrix times vector is the matrix-vector product** - LinAlgModel. nonempty_columns as coded (`_ is True`), refutation for csc, proof for csr.
* **C27 Claimed distribution pattern is verified** - LinAlgModel. Tuple truthiness, refutation for columns, proof for rows.
* **C28 Gathering a distributed vector returns the whole vector** - LinAlgModel. Gather; proof for non-master-dominating, refutation for master-dominating with another target core.
* **C29 Iterative solver stop criterion: return code semantics** - StopModel. judges and the outer loop as a recursion on the residual stream.
* **C30 BiCGSTAB keeps its shadow residual and reports the true residual** - KrylovModel over a field: update invariants by induction; aliasing modelled with an explicit buffer store.
* **C31 LGMRES augmentation cache is always consistent** - KrylovModel. Key sets of the augmentation dictionaries along the loop.
* **C32 Static condensation solves the original saddle point system** - KrylovModel. Block elimination over modules of functions, both directions.
* **C33 Newton-Raphson return code and iteration bound** - StopModel. Newton loop over a stream of corrections.
* **C34 Interrupted time iteration resumes to the same result table** - IterModel. Result table as list of rows, crash after any prefix.
* **C35 Solver-requested shut down stops the iteration** - IterModel. Assertion on the string case, resumed run (refuted).
* **C36 SimpleIterator accepts every consistent time setting** - IterModel. binary64 arithmetic from Coq.Floats.SpecFloat for the failing witness; rational arithmetic for the positive part.
* **C37 Matrix input runner computes every missing input set exactly once across crashes** - RunnerModel (file as list of characters, master loop, slaves as readers of the broadcasts), RunnerNumModel (decimal texts of doubles over Flocq), RunnerProofs..RunnerProofs9: texts and words, header, rows, invariant 'the file holds header and rows of the calls' over turns and sessions
* **C38 Time formatting round trips** - MiscModel. Integer arithmetic on seconds and decimal text.
* **C39 break_list_into_parts is a partition in order** - MiscModel.
* **C40 Memoized functions return the function's value** - MiscModel. Keys via a rendering function that is not injective (refuted with the numpy summarised text modelled as an oracle).
* **C41 File name normalisation yields a valid .mi name** - MiscModel on character lists.
* **C42 Piecewise function evaluation: last true condition wins** - MiscModel.
* **C43 Line intersection is the common point** - MiscModel over a field.
* **C44 Transfinite mapping interpolates its four boundary curves** - TransModel over a commutative ring; derivatives as formal differential quotient identities.
* **C45 Local dof numbering is a bijection onto 0..num_basis-1** - SpaceModel. reshape(order='F') index functions; bijection by explicit inverse.
* **C46 Discrete exterior derivative squares to zero (3D)** - SpaceModel. Matrices as folds of writes; the row action on a cochain is computed; E21(E10 u)=0 by ring.
* **C47 Discrete exterior derivative squares to zero (2D)** - SpaceModel, 2D.
* **C48 Incidence matrices realise the boundary operator** - SpaceModel. Entry-level description of the same folds.
* **C49 Trace matrices select signed boundary dofs** - SpaceModel.
* **C50 Non-hybrid local trace numbering is conforming and gap free** - SpaceModel. Geometric coordinates of side dofs as specification.
* **C51 Internal local dofs are exactly the dofs not on the element boundary** - SpaceModel. Specification by coordinates; refutation of p=(1,1,1).
* **C52 Nodal basis: Kronecker property and partition of unity** - BasisModel, BasisProofs (mathcomp polynomials: a polynomial of degree below n with n roots is zero)
* **C53 Edge basis: histopolation and commutation with the derivative** - BasisProofs: derivatives at nodes from W = (X - x_k) c_k l_k; Abel summation; BasisProofs2 for accepted nodes
* **C54 Basis evaluation is a function of its argument** - MiscModel. Store with references (refuted).
* **C55 Space refinement raises each degree by its own increment** - MiscModel (refuted).
* **C56 Elements are partitioned over the cores in increasing order** - MeshModel. Distribution loops as coded.
* **C57 Element numbering of a structured region is a bijection, increasing along every axis** - MeshModel.
* **C58 Element adjacency map is symmetric** - MeshModel.
* **C59 Trace elements: one number per face, shared by exactly the two adjacent sides** - TraceModel, TraceProofs, TraceProofs2: closed form of the numbering (count of new sides before), invariant of POOL along the relay
* **C60 Trace/edge element type counts are prefix counts** - TraceModel (type_amounts, gm_tew, gm_trace), TraceProofs3: POOL entries are prefix counts, and present when needed; EdgeModel (edge_amounts, edge_numbering), EdgeProofs3
* **C61 Naive numbering of non-hybrid forms is conforming** - NumModel, NumProofs .. NumProofs5. The master's loop: numbers are given stepwise (an entry has the number of a glued cell of an earlier element, or a fresh one), for all element maps; then boxes by coordinates, and the meshes of one region through the element maps of MeshMapModel
* **C62 Naive numbering works for every region order** - NumModel, NumProofs3: exact conditions (every element beside an earlier one; every cell met before glued to a cell of an earlier element), witnesses from the mesh model
* **C63 Non-hybrid trace numbering is the restriction of the form numbering** - NhtModel. Renumbering array as a fold over the elements; order invariants of the form numbering (`prefixed`); gathering through VectorAssembler; facing sides have their cells in the same order.
* **C64 Global cochain round trip** - CochainModel (globe, set_globe), CochainProofs, CochainProofs2: stored entries of csc vectors, averages over holders
* **C65 Saving and reading back objects is the identity** - SaveModel (mutable dictionaries at addresses of a heap, pickled files keep sharing, caches of one mesh and one space, text tags), SaveProofs..SaveProofs4: one object, invariant along the list; emptied dictionaries block a second use
* **C66 Strong boundary conditions determine exactly the dofs on the boundaries asked for** - StrongModel/StrongSpec; StrongProofs..3: rows of the assembled system after identify and set_entries; 4: parts and dofs; 5, 7: saturation (own numbers, touching faces, same_box); 6, 8: solutions; StrongExample: the refuted cases
* **C67 Cochains of several forms go into one vector and back** - CochainModel (full_of_forms, distributed_to, distributed_chain), CochainProofs3, CochainProofs4, CochainProofs6: slices and offsets; silly chains through C10
* **C68 The distributed Arnoldi process equals the serial one** - KrylovModel. State of all cores (basis rows, Hessenberg parts) along the inner loop; invariant relating it to the serial loop.
* **C69 Fixed solutions in the Newton solver** - StopModel. Newton loop with the linear solve as an oracle that leaves identified dofs alone; witness for the first step.
* **C70 Jacobi preconditioning keeps the distributed system** - KrylovModel. Sums over cores.
* **C71 take_closest returns the closest entry** - bisect_left loop invariant, then case analysis on the two neighbours
* **C73 A scaled function stays what it was** - object store with bound methods as object numbers; last call wins; refutation by calling twice
* **C74 Report selection keeps order, first and last rows** - monotonicity of i*D/d for D >= d
* **C75 General file name checker is idempotent** - decomposition at the last dot; split and join of the rest
* **C76 Selective matrices of edge forms pick the dofs on the twelve edges** - SpaceModel/SpaceSpec/SpaceProofs*/SpaceProps; edges of the box as pairs of sides
* **C77 The topological connection couples a form with its trace on the surface** - SpaceModel (connect), SpaceProofs8
* **C78 Discrete Gauss theorem of incidence and trace matrices** - SpaceProofs9 (summation of the realised incidence numbers)
* **C79 slave_of_element finds the core that owns an element** - MeshMapModel (halve, slave_of), MeshMapProofs3: invariant of the bisection on prefix sums
* **C80 The region map is mutual** - MeshMapModel (region_map), MeshMapProofs: invariant of the overwriting loop
* **C81 Optimising the SWV0 distribution keeps it a partition** - MeshModel (optimize), MeshProofs3
* **C82 Elements tile the reference cube of a region** - SpacingModel, SpacingProofs; rational numbers (Qc) instead of floats
* **C83 Records of node and edge elements are complete on every core** - EdgeModel (locations), EdgeProofs, EdgeProofs2: records are complete if the cap of 4 (8) places is not passed, always so in a box
* **C84 Cochains saved region-wise fit any element numbering** - CochainModel (group, ungroup), CochainProofs5: keys are injective (last separator; decimal numbers), element search of MeshMapProofs2
* **C85 Region maps have the given sides and the coded Jacobian matrices are their derivatives** - TfiModel, Edge2Model, TfiSpec; TfiProofs (faces, derivatives by linear combination), TfiProofs2 (planes), TfiProofs3, TfiProofs4 (crazy: bound of the sum of sines, monotone along the diagonal), Edge2Proofs (angle, arcs)
* **C86 Accepted regions are valid and their volume is right** - TfiModel (check_line_consistency, region_volume), TfiProofs2 (bulged side), TfiProofs3 (folding by the intermediate value theorem), TfiProofs4 (wedge)
* **C87 Coordinate transformations of elements and their sides** - CtModel, CtSpec; CtProofs (chain rule, inverse, metric, normals), CtProofs2 (layout neighbours)
* **C88 A 1-trace does not depend on the element its side is taken from** - CtModel (tr1_reconstruct, tr1_weights), CtProofs2 (blocks of the metric and its inverse, sheared region)
* **C89 Values cached by metric type are those of the element** - MarkModel, MarkSpec; MarkProofs (printing, caches), MarkProofs2 (elements and sides of box regions)
* **C90 The constant Jacobian of a trace element is the area factor of its map** - MarkModel (constant_Jacobian), MarkProofs2
* **C91 Discretization integrates over the cells of the degrees of freedom** - arrays as lists of columns, loops as writes; closed form by a loop-order normal form, then cell by cell
* **C92 Discretization commutes with the gradient** - fundamental theorem along each edge, chain rule through the map, rows of E10
* **C93 Discretization commutes with the curl** - d/dxi (v.F_eta) - d/deta (v.F_xi) = curl v . (F_xi x F_eta), Stokes per face, rows of E21
* **C94 Discretization commutes with the divergence** - Piola identity, Gauss per volume, rows of E32
* **C95 2D discretization integrates over the cells and commutes with the derivatives** - as C91-C94
* **C96 The coordinate transformation of 2D elements is consistent** - chain rule, ring identities
* **C97 Reconstruction evaluates the field of the cochain** - ReconModel, lists of rows over the reals; ReconSpec sums over the cells of SpaceSpec.
* **C98 Discretization inverts reconstruction** - Duality of cells and cell functions, by tensor products of the 1D Kronecker and histopolation properties.
* **C99 Mass matrices hold the integrals of inner products and are symmetric positive definite** - Entries indexed by pairs of cells (kmat); the bilinear form is a sum over points; positivity by separation along the axes.
* **C100 The wedge matrix of 1- and 2-forms is metric free** - As C99.
* **C101 Derivatives of reconstructed forms are reconstructions of incidence times cochain** - Derivatives of tensor sums along one axis by the 1D edge property; chain rule lemmas of C92-C94.
* **C102 The polynomials of the space fulfil the hypotheses of reconstruction** - stdlib R as a mathcomp realFieldType (RField); the theorems of C52/C53.
* **C103 Arrays of cross products hold the integrals of (w x u) . e** - CrossModel: reconstruction matrices of C97, arrays as lists of lists of lists. CrossSpec: tri and triple.
* **C104 Convection and induction terms** - As C103 with C101 for the curl; the inverse of the mass matrix is an argument with its property as hypothesis.
* **C105 Multi-dimensional matrices contract as multilinear forms** - MdmModel: arrays as functions of index lists, einsum as the sum over the box of all letters. MdmSpec: mval contracts axis by axis.
* **C106 The Newton matrix is the Jacobian of the nonlinear system** - MdmModel: nls, evaluate_f, lhs, newton_system over any commutative ring, assembling by arbitrary numberings. MdmSpec: residual, F, N.
* **C107 What NewtonRaphson returns solves the system** - The loop of C33 with the correction given by C106.
* **C108 Local numberings of triangles are one to one** - TriModel: tln0, tln_dx, tln_dy, tln2, edge_dofs0/1. TriSpec: node_at, edge_ok, numbers.
* **C109 Incidence matrices of triangles are boundary operators** - TriModel: tE0, tE1 as lists of writes, the last one counting, -1 wrapping around. TriSpec: d_node, d_edge.
* **C110 The element map of a triangular mesh tells the neighbours** - TriModel: oriented_cells, element_map (all pairs of cells), parse_boundaries. TriSpec: describes, one_condition. Not overlapping triangles meet at most in pairs on an edge (real arithmetic).
* **C111 Gathering of 0-forms on triangles identifies exactly the shared nodes** - TriModel: numbering0 with the state of the loop (current number, numbered vertices, numbered edges). TriSpec: where0.
* **C112 Gathering of 1- and 2-forms on triangles identifies exactly the shared segments** - TriModel: numbering1, gathering2. TriSpec: where1.
* **C113 The signs of the transition matrices make coboundaries single valued and conservative** - TriModel: minus_edges, transition, incidence0/1. Counterclockwise cells pass a shared edge in opposite directions.
* **C114 The element transformation maps the square one to one onto the triangle** - TdiscModel: tct_mapping, tct_Jacobian_matrix on the curves of TransModel; ct2_* of Disc2Model for the metric. TdiscSpec: between, in_tri.
* **C115 Discretization on triangles commutes with the incidence matrices** - TdiscModel: tdisc0, tdisc1, tdisc2. TdiscSpec: node_pos, int_edge, face_cell.
* **C116 Discretized forms have one value at each global dof of a triangular mesh** - make_mesh, numbering0/1 of TriModel with tdisc0, tdisc1. TdiscSpec: sym_nodes, sym_rule, corner_pt.
* **C117 Reconstruction of forms on triangles** - TreconModel: tbasis0/1/2, tbasis1_at, trecon0/1/2, trm0/1/2. TreconSpec: that0, that1, that2, tpulls1, tpulls2, array2.
* **C118 Discretization after reconstruction on triangles is the identity** - tdisc0/1/2 of TdiscModel with that0/1/2.
* **C119 Incidence matrices are the derivatives of reconstructed forms on triangles** - incidence0/1 of TriModel with that0/1/2.
* **C120 Mass matrices and energies of forms on triangles** - TreconModel: tinner0/1/2, tfac, tenergy_scalar, tenergy_vector. TreconSpec: tquad.
* **C121 Reconstructed forms are conforming on triangular meshes** - make_mesh, numbering0/1 of TriModel with that0, that1. TreconSpec: side_pt, side_vec, local0, local1, trace, mirrored.
* **C122 Numerical partial derivatives of fields** - FieldModel: derivative, scipy_partial3/2, check_partial. FieldSpec: is_partial3/2, accepted. Taylor with mean values.
* **C123 Vector operators on 3D fields** - FieldModel: numeric3, gradient3, divergence3, curl3, sconvection3, vconvection3. FieldSpec: diff3, gives3, givesv3, plain3.
* **C124 Results of vector operators can be differentiated again (3D)** - FieldModel. FieldSpec: stuck3, stuckv3.
* **C125 Vector operators on 2D fields** - FieldModel: numeric2, gradient2, curl2, divergence2, rot2, sconvection2, vconvection2. FieldSpec: diff2, gives2, plain2.
* **C126 Pointwise algebra of vector fields** - FieldModel: dot3, cross3, vadd3, vsub3, vneg3. FieldSpec: inner, determinant.
* **C127 Body force of 3D Navier-Stokes and Stokes solutions** - ExactModel: force_x3.., omega_x3.., tp_x3.., m_laplace3, stokes_x3... ExactSpec: momentum3, is_curl3, is_div3.
* **C128 Sources of the MHD solutions** - ExactModel: mhd_x.., r_x.., make_mhd; ExactCaseModel: as1, as2, msc. ExactSpec: documented_x.. with diff3.
* **C129 Body force of 2D Navier-Stokes and Euler solutions** - ExactModel: force_x2.., euler_x2..; ExactCaseModel: tgv_u... ExactSpec: momentum2, transport2.
* **C130 Sources of Poisson, wave, Schroedinger, Laplace and Stokes solutions** - ExactModel: poisson_f, wave_f, schroedinger_f, laplace_f2, stokes_x2. ExactSpec: is_laplacian3/2.
* **C131 Hand-written derivatives of exact solutions** - ExactCaseModel; ExactSpec: exact_flow3, first3, solenoidal3; derivative rules of the standard library.
* **C132 Dipole collision and flow round a cylinder** - ExactCaseModel: make_dipole, dp_omega, outline_ok, make_channel, fc_u.
* **C133 Piecewise functions and the shear layer** - ExactCaseModel: place, genpiecewise, shear_u.
* **C134 Discretization of 2-traces** - TrfModel: trf_disc2, trf_disc2v; TrfSpec: side_cells, restrict_to, int_area; DiscSpec: int2; trace2 of SpaceModel.
* **C135 Discretization of 0-traces** - TrfModel: trf_disc0, trf_disc0v; TrfSpec: int_normal, component.
* **C136 Reconstruction of trace forms** - TrfModel: side_basis, trf_recon0, trf_recon2; TrfSpec: side_hat.
* **C137 Mass matrices of trace forms, and discretization after reconstruction** - TrfModel: side_metric, trf_mass; TrfSpec: side_rule, nface; ReconSpec: bilinear, positive_definite.
* **C138 Cochains of dual forms** - AdfModel: dual_get, dual_set, dual_set_full, trace_set_globe; AdfSpec: inverse_of, covers.
* **C139 The coboundary of dual forms** - AdfModel: dual_E, dual_T, dual_step, dual_coboundary; AdfSpec: pairing, is_d, is_trace, weak_d.
* **C140 Dual forms as fields** - AdfModel: bdiag, mew_mass; AdfSpec: mass6, outward_sum, side_pieces; ReconModel: inner0..inner3; TrfModel: trf_mass.
* **C141 Trace cochains by element and by trace element** - TewModel: set_local, get_tew, set_tew, local_2_tew, tew_2_local; TewSpec: fits, entry, on_side_values, conforming, single_valued.
* **C142 2D reconstruction evaluates the field of the cochain** - Rec2Model: r2recon0/1/2, r2rm0/1/2, r2vec0/1/2; Rec2Spec: expand2, field1, field2.
* **C143 2D discretization inverts reconstruction** - Composition of Disc2Model and Rec2Model.
* **C144 2D inner products, wedge products and energies** - Rec2Model: r2inner0/1/2, r2wedge20/02/11, r2energy_s/v/vec, r2L2_with.
* **C145 2D incidence matrices differentiate reconstructed forms** - Rec2Proofs5 with SpaceModel EI10, EO10, EI21, EO21.
* **C146 L^n errors of forms** - ErrModel: err2, errt, err3; ErrSpec: fields2/t/3, pow_diff, root_of.
* **C147 L-infinity and H errors, errors up to constants** - ErrModel: err_inf, inf_nodes, err_H, err_upon, form_func.
* **C148 Arithmetic of forms** - FarModel: combine_forms, combine_tri, rmul_3d, rmul_2d; FarSpec: entrywise, multiple, has, full, alike.
* **C149 Fields of combined forms** - FarProofs3: fields_linear, fields_multiple.
* **C150 Cross products in the plane** - Cr2Model: cross_2d, cross_tri; Cr2Spec: triple2.
* **C151 Caches of triangular forms** - Cr2Model: shape, high_similarity, key1, key0, requests; Cr2Spec: translates, on_lattice.
* **C152 Projections of 3D 1- and 2-forms** - VdModel: proj3, proj2.
* **C153 Vortex detection of 3D 1- and 2-forms** - VdModel: grad_tensor, S_of, O_of, so_of, Q_of, lambda2_of.
* **C154 Cochains of local trace forms** - LtcModel: set_local_lt, get_esw, set_esw, on_element_side, set_globe_full, lt_globe.
* **C155 Numbering of local trace forms** - LtcModel: lt_numbers, local_dofs_on_side, dofs_on_side, boundary_dofs_lt.
* **C156 Cells of triangular meshes for vtk** - VtkModel: quadratic, tq_data, tq_cached.
* **C157 Areas, angles and quality of triangles** - TsizeModel: tri_area, angles_of_triangle, quality, domain_area.
* **C158 Types of straight 2D regions** - TypModel: if_two_lines_parallel, classify, classify_element.
* **C159 Types of 3D regions with plane sides** - Typ3Model: classify3, classify_element3, on the map of TfiModel.

## What each model file covers

* `AdfModel.v`: Algebraic dual forms of 3D structured meshes: objects/CSCG/_3d/ADF/standard/ base/{main,coboundary}.py, cochain/{main,local}.py, ADF/trace/base/{main, coboundary}.py, cochain/{main,local}.py and the caches of objects/CSCG/base/ ADF/base/main.py. A dual form has no cochain of its own: it reads and writes the cochain of its prime form through the mass matrix. Over the reals, with sparse matrices dense; M.inv is an argument. One core. Exceptions and failed assertions are None.
* `AsmModel.v`: Model of the assemblers of element-wise cached objects (tools/elementwiseCache/dataStructures/objects/{sparseMatrix,columnVector}/assembler.py with the lockers of sparseMatrix/do.py), of the customizations naming global rows (sparseMatrix/customize.py:110-272, columnVector/customize.py:352-427, miLinearAlgebra/linearSystem/customize.py:76-89) and of bmat and concatenate (dataStructures/operators). Entries are elements of a commutative ring.
* `AssembleModel.v`: Model of components/assemblers.py and components/distributors.py.
* `BasisModel.v`: Model of the 1d basis functions: objects/CSCG/base/spaces/_1d_basis/polynomials.py, lines 58-112 and 114-190, in exact arithmetic: an ordered field instead of floats. The entries of the arrays are functions of their indices; the columns for the different points x do not depend on each other, so there is one x. The caches (lines 98-100, 116-118) are in MiscModel (C54).
* `CochainModel.v`: Model of global cochains: objects/CSCG/base/forms/standard/cochain/main.py (globe, its setter, and the region-wise grouping used when saving and reading forms), tools/miLinearAlgebra/dataStructures/vectors/distributed/{main,whether}.py, vectors/locallyFull/{main,do}.py. Exact rational numbers instead of floats. Data of all cores are lists by rank; exceptions and failed assertions are None.
* `Cr2Model.v`: Inner products with cross products of a scalar and a vector form, in 2D: objects/CSCG/_2d/forms/standard/_0_form/outer/special/helpers/ cross_product_1_i_1.py and cross_product_1_i_1_2M0.py, _0_form/inner/special/ helpers/cross_product_1_i_1.py (which is the same class), _2_form/inner/special/ helpers/cross_product_1_i_1.py, and on triangles objects/miUsGrid/triangular/ forms/standard/_0/base/do/helpers/_0x1_ip_1.py; the caches of triangular forms: mesh/elements/element/main.py, mesh/elements/main.py and forms/standard/base/main.py. Conventions as in CrossModel, Rec2Model and TreconModel; caches by metric type of structured meshes are those of C89.
* `CrossModel.v`: Inner products with cross products, for one element of a 3D structured mesh: objects/CSCG/_3d/forms/standard/_1s/special/helpers/cross_product_1__ip_1.py, cross_product_2__ip_2.py, curl1_cross_product_1__ip_2.py and _2s/special/ helpers/cross_product_1__ip_2.py, cross_product_2__ip_1.py, cross_product_2__ip_2.py, cross_product_2__ip_2_2M0.py, inner_curl_cross_2f2f.py. Over the reals; rounding is not modelled. 3d arrays are lists of lists of lists. The rules are arguments (quad_degree); caches by metric type are those of C89.
* `CtModel.v`: Coordinate transformations of the elements and trace elements of 3D structured meshes, pointwise over the reals. Arrays of points are handled elementwise by numpy; one point is modelled.
* `Disc2Model.v`: Discretization of scalars and vectors to standard forms on one element of a 2D structured mesh: objects/CSCG/_2d/forms/standard/_0_form, _1_form, _2_form, and the coordinate transformation of such an element: objects/CSCG/_2d/mesh/elements/element/coordinate_transformation/main.py. Conventions as in DiscModel.
* `DiscModel.v`: Discretization (reduction) of scalars and vectors to standard forms, for one element of a 3D or 2D structured mesh: objects/CSCG/_3d/forms/standard/_0s, _1s, _2s, _3s/discretize/*/standard.py and objects/CSCG/_2d/forms/standard/ _0_form, _1_form, _2_form. Over the reals; rounding is not modelled. Arrays with quadrature points along axis 0 and degrees of freedom along axis 1 are lists of columns. Operations on arrays of different lengths, an error in numpy, stop at the shorter one. The quadrature rules (nodes on [-1, 1] and weights, components/quadrature.py), the map of the element, its Jacobian matrix and the function are arguments; the caches of Jacobian matrices by metric type are those of C89.
* `Edge2Model.v`: Edges of the regions of 2D structured meshes: straight lines and circular arcs between two corners of the region, over the reals.
* `EdgeModel.v`: Model of where the node and edge elements of a 3D mesh are, of the type counts of edge elements, and of the numbering of edge forms: objects/CSCG/_3d/mesh/{node,edge}/elements/main.py, objects/CSCG/_3d/forms/edge/base/numbering/Naive.py.
* `ErrModel.v`: Errors of forms against their continuous form (CF), on several cores: objects/CSCG/_2d/forms/standard/base/error.py (2D), objects/CSCG/_3d/forms/standard/base/error.py (3D) and objects/miUsGrid/triangular/forms/standard/base/error.py (tri). None is an exception or nan.
* `EwcModel.v`: Model of the element-wise cached (EWC) matrices and vectors: tools/elementwiseCache/dataStructures/objects/sparseMatrix/main.py (EWC_SparseMatrix), .../columnVector/main.py (EWC_ColumnVector, the same caching code), their helpers/ and the key generators of operators/bmat and operators/concatenate. Simplifications. Keys (python str) are lists of characters. Local matrices are values of an abstract type V (the caching code never looks inside); the mutation of returned scipy objects by callers is not modelled. Meshes are reduced to the list of local elements.
* `ExactCaseModel.v`: Particular exact solutions of objects/CSCG/_3d/exactSolutions, objects/CSCG/_2d/exactSolutions and objects/miUsGrid/triangular/exactSolution. numpy's sin, cos, exp, tanh and pi are the real ones. Terms [0 * x] are kept as in the code.
* `ExactModel.v`: Exact solutions: the base classes of objects/CSCG/_3d/exactSolutions (incompressible Navier-Stokes, incompressible MHD, Stokes, Poisson, wave and time independent Schroedinger equations), of objects/CSCG/_2d/exactSolutions (incompressible Navier-Stokes, Euler, scalar Laplace) and of objects/miUsGrid/triangular/exactSolution (the dimensionless Navier-Stokes equations and Stokes, whose formulas are the same). Numbers are reals, arrays are evaluated pointwise. A subclass gives the methods it overrides; a derivative it does not override is the numerical one of FieldModel. Not modelled: the field objects that wrap the methods, caching, [valid_time], and [___PreFrozenChecker___] (whose checks of derivatives are [check_partial] of FieldModel).
* `FarModel.v`: Arithmetic of forms: objects/CSCG/_3d/forms/base.py 49-181 (3D), objects/CSCG/_2d/forms/base.py 42-124 (2D) and objects/miUsGrid/triangular/forms/standard/base/main.py 41-46, 95-117 (tri). One core. None is an exception.
* `FieldModel.v`: Scalar and vector functions of time and space and their numerical derivatives: components/numerical/timePlus{2,3}dSpace/ partial_derivative.py and partial_derivative_as_functions.py, and the wrappers components/functions/timePlus{2,3}dSpace/wrappers/{scalar, vector}.py with their helpers. Numbers are reals. A python callable is its kind (plain function, bound method, anything else with [__call__]), its argument count and its value; an evaluation on arrays is elementwise and is modelled at one point. The step is the default 1e-6 of every caller, [n] and [order] are the defaults 1 and 3.
* `GatherModel.v`: Model of tools/elementwiseCache/gathering/ (regular gathering matrices, chained gathering matrices, searches in them, and the cache of chained matrices). Numberings are naturals (numpy ints; a negative number is not modelled). Distributed objects are lists indexed by the rank.
* `GroupModel.v`: Model of the core grouping, /repo/root/config/group.py.
* `IterModel.v`: Model of the time iterators: tools/iterators/base/main.py (Iterator: __call__, run, the setters of running_step, t and shut_down, append_outputs_to_RDF) and tools/iterators/simple.py (SimpleIterator). All cores do the same with the same outputs (the docstring of run demands it), so one core is modelled. Monitor, progress bar, cpu load, reports and the .mitr file are left out. The csv file is the table that was saved; that pandas reads back what it wrote is assumed.
* `KrylovModel.v`: Model of the linear solvers of tools/miLinearAlgebra/solvers: BiCGSTAB/helpers/mpi_v0.py, the Arnoldi loops of GMRES/helpers/{mpi_v0,mpi_v1}.py and LGMRES/helpers/mpi_v0.py, the augmentation dictionaries of LGMRES, Schur/rank2 with its direct helper, and preconditioners/Jacobi.py. A vector is a function of the index, a matrix of the row and column; n is the order of the system. Entries are elements of a commutative ring with an arbitrary division function; rounding is not modelled. A distributed object gives the part of each core r < SIZE; COMM.Reduce / Allreduce add the parts.
* `LinAlgModel.v`: Model of the distributed matrices and vectors of tools/miLinearAlgebra/dataStructures: globalMatrix/{main,do,whether,helpers/split_A}.py, vectors/{GLOBAL,distributed}/{main,do,whether}.py. A distributed object is the function giving the part stored by each core r < SIZE; the master is core 0. Entries are elements of a commutative ring.
* `LtcModel.v`: Model of local trace forms: their cochains, element by element and side by side, objects/CSCG/base/forms/localTrace/cochain/main.py and objects/CSCG/_3d/forms/localTrace/base/cochain/main.py, and their numbering, localTrace/base/numbering/{Naive,main,do/find}.py. Dicts and sides as in TewModel.
* `MarkModel.v`: Metric types of elements and trace elements and the caches keyed by them. Lengths are real numbers; strings like 'Orth.xy%.4fz%.4f' are constructors with the printed digits as integers (the prefixes are different, so strings are equal exactly if these are). fmt k x is the integer printed, without the point, by '%.kf' % x and by round(x, k); doubles are not modelled.
* `MdmModel.v`: The multi-dimensional matrices of tools/elementwiseCache/dataStructures/objects/multiDimMatrix and the nonlinear systems of tools/miLinearAlgebra/nonlinearSystem built on them. A form is its identity (a number), what the code reads of it is [num.basis] (here [nb]) and, element by element, its local cochain. Floats are the elements of a commutative ring. The caches of the elementwise objects are not modelled here (all objects made here are 'no_cache').
* `MeshMapModel.v`: Model of the region map, the element map and the periodic setting of a 3D mesh, and of finding the core of an element: objects/CSCG/_3d/mesh/domain/base.py, _3d/mesh/main.py, _3d/mesh/periodicSetting, _3d/mesh/do/find.py. Regions are the numbers 0 .. nrs - 1 in the order of regions.names; exceptions are None.
* `MeshModel.v`: Model of the element layout, distribution and numbering of a 3D mesh: objects/CSCG/base/mesh/base.py and objects/CSCG/_3d/mesh/main.py. Regions are the numbers 0 .. nrs - 1 in the order of regions.names. Exceptions and failed assertions are None; arrays are those of SpaceModel.
* `MiscModel.v`: Model of small components: components/miscellaneous/{timer,break_list,generalized_piecewise_function}.py, components/miscellaneous/checks/{check_no_splcharacter,check_filename,check_filename_mi}.py, components/decorators/memoize/memoize_1.py, components/functions/{_2dSpace,_3dSpace}/scaling.py, components/functions/_2dSpace/line_intersection.py, components/collections/take_closest.py, tools/iterators/base/monitor/do.py:___Pr_select_reasonable_amount_of_data___, the caches of objects/CSCG/base/spaces/_1d_basis/polynomials.py and objects/CSCG/_3d/spaces/polynomials/do.py:refine. Text is the list of its code points. Floats are rationals (no rounding).
* `NhtModel.v`: Model of the numbering of non-hybrid trace forms: ___Pr_nonhybrid_numbering___ of objects/CSCG/_3d/forms/trace/base/numbering/Naive.py:219-360 (used for k = 0, 1, 2), with local_dofs_on_element_side of objects/CSCG/_3d/forms/standard/base/numbering/do/find.py:37-117. Exceptions and failed assertions are None.
* `NumModel.v`: Model of the naive numbering of standard forms: objects/CSCG/_3d/forms/standard/base/numbering/Naive.py, objects/CSCG/_2d/forms/standard/base/numbering/Naive.py, and of the maps of node and edge elements (objects/CSCG/_3d/mesh/{node,edge}/elements/main.py), which are the numberings of a 0- and a 1-form of degree (1, 1, 1). The master numbers everything, core after core; exceptions (KeyError, failed assertions) are None.
* `Rec2Model.v`: Basis functions, reconstruction, inner product and wedge matrices, energies and errors of standard forms on a 2D structured mesh: objects/CSCG/_2d/spaces/base and forms/standard. Conventions as in TreconModel; each element comes with its Jacobian matrix as a function of the point and with orth: the mark of its metric type is a string that starts with 'Orth'. The caches by mark are those of C89.
* `ReconModel.v`: Reconstruction of standard forms and their mass and wedge matrices, for one element of a 3D structured mesh: objects/CSCG/_3d/forms/standard/_0s, _1s, _2s, _3s/reconstruct.py and inheriting/private.py, _3d/spaces/base/do.py. Over the reals; rounding is not modelled. 2d arrays are lists of rows. The Jacobian matrix of the element is an argument, as a function of the point; the caches by metric type are those of C89. Sparse matrices are dense.
* `RunnerModel.v`: Model of the runner over 3d matrices of inputs: tools/legacy/serialRunners/_runner_.py, tools/legacy/serialRunners/INSTANCES/matrix3d_input_runner.py and the slave side in tools/run/runners/_3d_matrix_inputs/main.py. Texts are lists of ascii characters; the text of a number and its reading are parameters, and so are the three times of a row and the solver. Exceptions are [None].
* `RunnerNumModel.v`: Model of the writing and reading of numbers by the runner, as real numbers (Flocq).
* `SaveModel.v`: Model of saving and reading objects: root/save.py, root/read/main.py, root/read/helpers/chain.py, root/read/helpers/_3dCSCG/{mesh,space,form,ADF}.py, components/freeze/main.py (___PRIVATE_save___), objects/CSCG/base/forms/base/main.py:50-80 and objects/CSCG/base/ADF/base/main.py:42-70 (parameters), objects/CSCG/_3d/master.py (what the parameters are), components/miscellaneous/checks/check_filename_mi.py. Dictionaries are mutable: they live at addresses of a heap, and a pickled file keeps which of them are the same (pickle writes a dictionary once and refers to it afterwards). 3d objects only; the helpers of the 2d objects are copies. Exceptions are None.
* `SchedModel.v`: Models of the cooperative multi-core procedures /repo/root/config/chaining.py, dispatching.py and check_same_in_all_cores.py.
* `SpaceModel.v`: Model of the local (one element) numbering and topology of the spaces of objects/CSCG/_3d/spaces/base/{num_basis,local_numbering,incidence_matrix,trace_matrix,selective_matrix, local_gathering,internal_local_dofs,topological_connection/main}.py and objects/CSCG/_2d/spaces/base/{num_basis,local_numbering,incidence_matrix,trace_matrix}.py. numpy arrays are a shape and a function on index lists; exceptions (IndexError, ValueError of a shape mismatch, failed assertions) are None. [p] is the list of the polynomial degrees, [px; py; pz] or [px; py].
* `SpacingModel.v`: Model of the element sizes of a region in its reference cube: _3d/mesh/main.py ___PRIVATE_parse_element_layout_each_region___ (lines 139-195), do/find.py:49-66. Exact rational numbers instead of floats.
* `StopModel.v`: Model of the stop criteria and of the outer loops that use them: tools/miLinearAlgebra/solvers/regular/GMRES/helpers/components/stop_criterion.py, the loop heads of GMRES/helpers/{mpi_v0,mpi_v1}.py, LGMRES/helpers/mpi_v0.py and BiCGSTAB/helpers/mpi_v0.py, and tools/miLinearAlgebra/nonlinearSystem/solve/NewtonRaphson/{regular,helpers/stop_criterion}.py. A float is a rational or nan; rounding and overflow are not modelled. The residual norms a solver produces are an arbitrary stream.
* `StrongModel.v`: Model of the strong boundary conditions: the element sides of the boundaries (objects/CSCG/_3d/mesh/boundaries/main.py:45-95), the boundary conditions of a form (objects/CSCG/base/forms/base/BC/main.py), their local interpretation with its cache (BC/interpret/local.py), the customizations made of it (tools/elementwiseCache/dataStructures/objects/sparseMatrix/customize.py:285-436, columnVector/customize.py:121-228) and apply_strong_BC (tools/miLinearAlgebra/linearSystem/customize.py:16-74). 'local' is the only interpretation the code has (any other raises). Exceptions are None.
* `TdiscModel.v`: The coordinate transformation of a triangle and the discretization of scalars and vectors to standard forms on triangular meshes: objects/miUsGrid/triangular/mesh/elements/element/coordinate_transformation/main.py and objects/miUsGrid/triangular/forms/standard/_0, _1, _2. Conventions as in DiscModel and Disc2Model; the caches of the points are not modelled.
* `TewModel.v`: Model of the two forms of a trace cochain: element by element, and trace element by trace element, objects/CSCG/base/forms/trace/cochain/main.py and objects/CSCG/_3d/forms/trace/base/cochain.py. One core; a dict is an association list in insertion order.
* `TfiModel.v`: Region interpolations of the structured meshes: the maps from the unit cube (square) onto a region, with their Jacobian matrices, pointwise over the reals. Numpy works elementwise on arrays of points; one point is modelled. Rounding is not modelled.
* `TraceModel.v`: Model of the trace elements of a 3D mesh: objects/CSCG/_3d/mesh/trace/elements/main.py and element/{main,whether}.py. The cores run one after the other, each handing its POOL and counter to the next: the whole run is a fold over the cores.
* `TransModel.v`: Model of components/functions/_2dSpace/transfinite.py:26-146 over the real numbers.
* `TreconModel.v`: Basis functions, reconstruction and mass matrices of standard forms on a cell of a triangular mesh: objects/miUsGrid/triangular/space/evaluation.py and forms/standard. Over the reals; 2d arrays are lists of rows as in ReconModel; sparse matrices are dense; the Jacobian matrix of the cell is an argument, as a function of the point. The pool of bases by transition type in base/do.py:41-54 and the caches of matrices are not modelled.
* `TreeModel.v`: Model of the reduction tree, /repo/root/config/tree.py, and of the message pattern with which gather_M_to_core uses it, /repo/tools/miLinearAlgebra/dataStructures/globalMatrix/do.py:74-122.
* `TrfModel.v`: 0- and 2-trace forms of 3D structured meshes, for one trace element: objects/CSCG/_3d/forms/trace/_0tr and _2tr (main.py and discretize/), _3d/spaces/base/do.py 196-266. Over the reals; rounding is not modelled. The trace element is given by the map F and the Jacobian matrix J of its CHARACTERISTIC_element and by its CHARACTERISTIC_side. Mass matrices are computed for every trace element; the caches by metric type are those of C89.
* `TriModel.v`: The triangular meshes of objects/miUsGrid/triangular: the function space (local numbering, incidence matrices), the construction of a mesh from cells and points, its boundaries, the numbering of standard forms, the transition matrices of 1-forms and the coboundary. Points have real coordinates (rounding is not modelled); numbers are nat, or Z where the code uses -1. Dictionaries over all elements are lists; gathering to the master core and scattering back is not modelled here (C24, C64).
* `TsizeModel.v`: Areas, angles and quality of triangular elements, objects/miUsGrid/ triangular/mesh/elements/element/main.py, mesh/domain/main.py and components/functions/_2dSpace. Floats are reals; None stands for nan or an exception (a division by zero, a root or an arc cosine out of range).
* `Typ3Model.v`: Types of 3D regions by their metric, objects/CSCG/_3d/mesh/domain/regions/ region/types_wrt_metric/transfinite.py, over the reals.
* `TypModel.v`: Types of 2D regions by their metric, objects/CSCG/_2d/mesh/domain/regions/ region/types_wrt_metric/transfinite.py, over the reals. A line between two equal points has no direction (nan); the model of the angle is total, so theorems ask for sides that are not points.
* `VdModel.v`: Vortex detection and the projections of 3D 1- and 2-forms, one element: objects/CSCG/_3d/forms/standard/_1s/special/vortex_detection.py (and _2s, the same), _1s/project/to.py, _2s/project/to.py. Conventions as in ReconModel; arrays in order 'F'. to.py reads self._sf_.IS_hybrid, which forms do not have (and _2s passes is_hybrid, which 0-forms do not take): the model is with whether.hybrid in its place, see DESIGN.md.
* `VtkModel.v`: The cells of triangular meshes for vtk, objects/miUsGrid/triangular/mesh/ miscellaneous/main.py, on the master core. Conventions as in TriModel; the numbering of triangle_and_quad_data (230-361) is that of 0-forms, numbering0, line by line.

## Findings: where the code and its intention disagree

Each of these is a theorem ending in `_refuted` (with a concrete witness), or a fact visible in the model.

* C05: a DISPATCHING task equal to the stop message blocks the program for ever.
* C09: the csc output of the local matrix assembler is the transposed matrix.
* C11: sequent chaining merges different dofs when the numbering of an operand is not itself sequent.
* C13: the chain cache key concatenates stamps without separators; different chains may collide.
* C15, C16: keys of sums concatenate the operands' keys; vector sums use the first operand's key twice, so the
  second operand is not followed; customizing an operand is seen or not depending on the cache.
* C18: new gathering matrices are accepted while the sparsity is locked, and the old ones are used.
* C20: row clearing searches at most four (2d) elements, and one position per element.
* C21: an assertion fails when a core stores its elements in another order.
* C24: a csc part received by a core holding a csr part is stacked along the wrong axis.
* C26: for csc parts `nonempty_columns` is compared with `is True`; the product of a spread csc matrix is zero.
* C27, C28: distribution claims by columns are not verified; gathering to a core other than the master loses the
  master's part; repeated indices within one core are not summed.
* C29: `info == 0` is also returned when the residual hardly decreased.
* C30: BiCGSTAB's shadow residual is an alias of the receive buffer and is overwritten by the second residual.
* C69: prescribed values enter the Newton start but not its first linearization.
* GMRES (both routines) and LGMRES with `restart == 1` delete `v_jp1` on the master before it is assigned
  (UnboundLocalError); not modelled further. LGMRES with k = 0 never frees its update dictionary.
* `shared_rows` of a csr global matrix is always empty, because `nonempty_rows` tests `is True`; not modelled.
* C34: a base class iterator whose dt changes would not follow it on the steps passed when resuming (the only
  iterator in the repository has a constant dt, for which resuming is proved right).
* C35: a shut-down reason given as a string always fails an assertion; a resumed run forgets that the solver shut down.
* C36: in binary64 the final equality assertion refuses e.g. 49 steps up to time 1, and the step count from max_time
  may be one too large (0.3 up to 2.1 gives 8).
* C38: in binary64 the milliseconds of 1.001 s are written as 000 (truncation of 0.9999999999998899).
* C39: `break_list_into_parts` does not notice counts that do not sum to the length.
* C40: `memoize1` keys are texts; numpy abbreviates arrays of more than 1000 entries, so that different arrays share a key.
* C41: `check_filename_mi` may return a name too long for itself, and turns the empty name into `.mi`.
* C42: `genpiecewise` converts the values to the type of the arguments (integer arguments: fractions are cut).
  `np.broadcast_arrays` returns a tuple from numpy 2 on, for which the `append` of the default condition would fail
  (not modelled).
* C54: the basis caches keep a reference to the caller's array: changing it in place and evaluating again returns the old
  values. C55: `refine` uses the first increment in all directions.
* C73: a `ScalingFunc` object used for two functions scales the second one in both results.
* 2D trace matrices: `_2dCSCG_0Trace_Inner`, `_2dCSCG_0Trace_Outer` and `_2dCSCG_1Trace_Inner` read attributes of `num_basis`
  that do not exist (`_0Trace_Inner` etc., trace_matrix.py:33,53,74), so that they raise; only the outer 1-trace is modelled.
* C78: the 2D outer 1-trace matrix has + on U and - on D, opposite to the outward signs; the discrete Gauss theorem fails in 2D.
* C51: `internal_local_dofs` of a 2-form of degree (1,1,1) calls `np.concatenate([])`, which raises. The module
  element_surface_dofs.py raises `np.concatenate` (not an exception) and otherwise returns internal dofs; not modelled.
* C58: the layouts of periodic region sides are not compared: sides with the same number of elements but another shape are
  joined twisted, a first side with fewer elements is joined partly.
* C80: the check that the two sides of attached regions face each other looks for the first side with that region name, so
  that with cracks two regions at the same place are accepted. `regionSidePool` of the domain input is reset for every
  boundary, so its check 'appears in multiple boundaries' only sees repetitions within one (the region map refuses the rest).
* `___PRIVATE_generate_element_map___` appends the list to itself (`RP.append(RP)`), so `___involved_regions___` is not a list of
  regions (it is not used). base/mesh/base.py:532 calls `self.DO.FIND_slave_of_element`, which does not exist (only in safe mode).
* C62: the naive numbering (also of node and edge elements) raises a KeyError if an element is beside no earlier one (noted in a
  comment of edge/elements/main.py), and silently numbers dofs twice if an element meets an earlier one only in an edge or node
  that is not on a side shared with an earlier element (ring of eight regions, C62_twice_refuted).
* C83: the records of an edge (node) element at more than four (eight) places lose places: once the dictionary has four (eight) of
  them they are moved to LOC_DICT_FULL and the next place starts a new list, which later overwrites the first one; so positions and
  shared elements are incomplete for e.g. eight
  regions around a line (C83_lost_refuted).
* C63: a non-hybrid 2-trace-form of degree (1,1,1) cannot be numbered on any mesh, as `internal_local_dofs` raises (C51).
* C64: the setter of `cochain.globe` for a DistributedVector that is not in the master core fills `np.empty` only at stored entries;
  stored entries exclude zeros (lil matrices store none), so the dofs of value zero of hybrid and volume forms get uninitialised memory.
* C67: `LocallyFullVector(forms, chain_method='sequent')` assembles the element vectors by addition, so dofs of non-hybrid forms shared
  by n elements are multiplied by n; 'silly' takes the average and is right.
* C65: reading pops the items of the dictionaries of the file. Two objects of one file that share a dictionary (a form and its algebraic
  dual, whose parameters are those of the prime; an object saved twice) can be saved and raise a KeyError when read by a new process, as
  pickle keeps the sharing; the same file can be read if the caches hold mesh and space already (C65_shared_refuted, C65_warm).
* C65: the caches of read compare `str(parameters)`; numpy arrays among the parameters are printed with 8 digits and summarised when long,
  so a different mesh with the same text is replaced by the cached one (C65_text_refuted).
* C65: `read` cannot restore _3dCSCG_1Edge and the local trace forms, which can be saved (C65_kind_refuted). A dual form made with a name
  'u' is read with the name 'AD_PRIME_u' (C65_dual_name_refuted). A list of one object is read as the object (C65_single_refuted).
* C65: `save` replaces dots in file names ('run_0.1' is written to run_0_1.mi, where 'run_0_1' is written too), `read` does not
  (C65_file_name, C65_file_name_refuted).
* C37: a runner killed after the last word of a row but before its newline leaves a row that is kept; the next runner writes its first row
  on the same line, and the one after that drops both and every row below (C37_torn, C37_torn_last, C37_torn_refuted).
* C37: killed while writing the header the file cannot be used by any later runner, or (within the last line) the first row is never read
  (C37_header_refuted, C37_header_last_refuted). The file is also rewritten from the start whenever incomplete rows are dropped; a kill there
  loses rows (not modelled: the write is taken as atomic).
* C37: other keyword arguments or another source of the solver only give a warning; the old outputs are the results
  (C37_kwargs_refuted). The pool of computed inputs is kept by the runner object, so a second iterate into another file computes and writes nothing
  (C37_used_refuted).
* C37: `readfile` appends a comma to the name of a single output (C37_read_file_refuted). Integers above 2^53 are read back rounded, so they are
  computed again by every runner (C37_integers_refuted). If the checks of the master fail the slaves wait in their first broadcast for ever.
* C66: apply_strong_BC identifies the rows of the elements having a side on the boundary only. A dof of further elements (the edge at a re-entrant corner of
  several regions, nodes between an element beside the boundary and one beside another boundary) keeps the entries of those elements: its row is not the
  boundary equation (C66_corner_refuted, C66_names_refuted).
* C66: the cache of the interpretation is keyed with id() of a list that may be gone; a list made later at the same address gets the dofs of the old one, also for
  another form (C66_cache_refuted, C66_deleted_refuted).
* C66: off the diagonal a row dof with two partners (a node on two sides and its two trace dofs) gets two ones in its row, the entry of the vector is the last value
  (C66_partners_refuted). On the diagonal the ones are placed with the row starts, right only if the column blocks start at the same positions (hypothesis of C66_rows).
* C86: `region.volume` evaluates the determinant of the map of [0,1]^3 at the Gauss nodes of [-1,1]^3 (only the weights are divided by 8): right for constant
  determinants only (C86_volume_refuted: a wedge of volume 3/2 gets 1).
* C86: the 3D crazy mesh with 2 pi |c| > sqrt 3 (about 0.2757) is folded: two points of the cube have the same image. c = 0.3 is used in several mains and the
  random parameters of the tests reach it (C86_crazy_folds). In 2D the limit is 1/pi, 0.3 is fine (C85_crazy_plane).
* C86: ___check_line_consistency___ compares sides at 2 to 4 equally spaced points with 6 decimals: sides that do not fit can pass for every drawn number
  (C86_consistency_check_refuted).

* C88: 1-traces are reconstructed with rows of the 3D inverse Jacobian matrix of the characteristic element. Unless the element is orthogonal to the side, the value has
  a part normal to the side that depends on the element, so the trace mass matrix of a side shared by two cores differs from that of the same side inside one core
  (the characteristic element is the local one): results depend on the number of cores (C88_same_from_both_elements_refuted). The coded inverse metric of a trace
  element is the inverse of the coded metric for orthogonal elements only (C88_intrinsic_partial).
* ElementsCTValuesCache hands intermediateData as a fourth evaluation point while J, iJ and detJ are keyword-only: the data are silently ignored and computed again
  (no wrong value).
* C89: marks of orthogonal elements print lengths with 3 decimals (4 for two equal ones): cubes of 0.0001 and 0.0003 are both 'Orth.0.000', and ElementsCTValuesCache
  and the element-wise matrix caches keyed by the mark (mass matrices) give one the values of the other, a factor 27 in the Jacobian (C89_elements_refuted). Marks of
  trace elements hold sizes in the reference cube without the size of the region: regions of different sizes share values (C89_sides_refuted).
* C90: `constant.Jacobian` of a 3D trace element is computed from these sizes; boundary integration multiplies with it. For every region whose area along the side is
  not one it is wrong, for Cuboid() with its default parameters by a factor 4 (C90_constant_refuted).
* Transfinite regions have no ___CLASSIFY_TRACE_ELEMENT_of_spacing___: metric types of trace elements of such meshes (psc, pwc, LDC; all 2D transfinite ones) raise
  NotImplementedError.
* C97: `reconstruct(..., regions=...)` of 1-, 2- and 3-forms calls `mesh.do.FIND_region_name_of_element`, which no class defines: AttributeError.
* C100: the wedge of a 3-form asserts `other.__class__.__name__ == '_0Form'` while the class is `_3dCSCG_0Form`: it fails for every argument.
* C103: the cross product helpers (all but curl1_cross_product_1__ip_2) ravel the points for the determinant in order 'C' while matrices and weights are in order 'F': on
  elements with non-constant determinant the weights belong to other points and the arrays are wrong (C103_order_refuted, for all combinations of degrees of forms).
* C103: output '2-M-0' of cross_product_1__ip_1 contracts 'ijk, i -> ki': entry i of u multiplies the sum over j, instead of the sum over j with u_j (C103_2M0_refuted).
* cross_product_2__ip_1 and inner_curl_cross_2f2f keep their last array in a module level cache keyed by the id()s of the three forms: forms made at the addresses of deleted
  ones get the array of the old forms, even on another mesh (the effect is that of C66_cache_refuted; not modelled again).
* C105: MultiDimMatrix.do.evaluate eliminates only the first axis of a form that occurs twice in the correspondence (`.index`): with all forms known it returns a vector
  instead of a number (C105_repeated_refuted). Nonlinear systems only accept pairwise different forms.
* C106: a right hand side entry 0 passes the constructor of the nonlinear system; evaluate_f then adds the int to vectors and fails (C106_zero_rhs). None works.
* C107: set_fixed_solution writes the value into xi (the array of the caller's x0) after matrix and residual of the first iteration were evaluated. If the old xi happens to
  satisfy the other equations the correction is 0 and the run returns info 0 with a vector that violates them (C107_prescribed_refuted).
* C110: mesh/construct of the triangular meshes accepts three cells on one edge (the marks of the later pairs overwrite the earlier ones) and a repeated cell once the first copy
  has three neighbours (`elif '' not in ELEMENT_MAP[i]: break`): C110_three_cells_refuted, C110_duplicate_refuted. A repeated cell otherwise raises.
* C111, C112: hybrid forms and periodic boundaries of triangular meshes raise NotImplementedError; not modelled.
* C114: the triangular coordinate transformation has no inverse Jacobian at the collapsed corner (1/0 in inverse_Jacobian_matrix 103-117 when a grid contains s = -1): C114_singular_refuted.
* C116: discretize(quad_degree=[a, b]) with a != b gives different values at shared segments of two triangles, the global cochain then depends on the element visited last: C116_two_rules_refuted.
* mesh/elements/coordinate_transformation/helpers/cache.py of the triangular mesh: `__getitem__` passes intermediate data to the element method as `item=` whose parameter is `itmD`; elements share metric data
  through a key made of the corner coordinates relative to the first corner printed with four decimals ('%.4f'), so that elements differing by less than that get each other's metric. Read in the source, not modelled.
* C120: forms/standard/base/do.py 128-168 of the triangular forms adds up value ** n without absolute values, so for odd n `compute_Ln_norm` is not a norm (a form with values of both signs can have energy 0 or below, and a negative number to a fractional power is a complex number): the model has the sum as coded.
* C124: in components/numerical/timePlus3dSpace/partial_derivative_as_functions.py only functions and methods are accepted, while the results of most operators are instances of helper classes, so `v.curl.divergence`, `v.curl.curl`, `v.divergence.gradient` and `(a + b).gradient` always raise NotImplementedError; the 2D module accepts instances.
* C122: `check_partial_z` (timePlus3dSpace/partial_derivative.py) divides by the numbers of the user formula where the checks of t, x and y divide by the numerical derivative.
* C128: incompressibleMHD/base.py documents `Pu/Pt + w x u + (1/Re) curl(w) - c (j x B) + grad(P) = f` but computes `- (1/Rf) Laplacian(u)` instead of `(1/Rf) curl(w)`; they differ by the gradient of the divergence, which is not zero for the shipped AS1.
* C132: DipoleCollision (2D CSCG) asserts only `we1 + we2 == 0`; the velocity uses `abs(we1)` but `omega` uses `we1`, `we2`, so with we1 < 0 the vorticity has the wrong sign, and the safety checks on enstrophy and palinstrophy do not see it.
* C132: `np.logical_and(x == -1, -1 <= y, y <= 1)` passes the third condition as the output array, so the upper bound is never tested.
* C132: CylinderInChannel asserts `r > 0` where the messages say `need li > 0` and `need lo > 0`.
* C132: FlowRoundCylinder takes `x < -(r + li)` as the inlet while the inlet is at x = -h/2 - li with r < h/2, so a piece of the upper and lower walls gets the inlet velocity.
* triangular DipoleCollision.Re is `1 / self.nu`, a division by zero for Re='infty', which its base class accepts.
* timeIndependentSchrodingerEquation/base.py documents the coefficient as hbar/2m; the code uses hbar**2/(2m).
* C133: genpiecewise casts values to the dtype of the inputs, so integer coordinates truncate the values (not modelled); it appends to the result of np.broadcast_arrays, which is a tuple since numpy 2.
* C138: the `globe` setter of dual trace forms reads `globe.IS_master_dominating` (nowhere defined; the attribute of other classes is `whether.master_dominating`) and then `self._dt_.numbering`, so no DistributedVector is accepted.
* C141: the `local` setter of trace cochains writes `whether._full_` before its shape assertions, so a rejected assignment changes what is said about the cochain that stays; it counts elements without looking at their names, so a dict of foreign elements is full.
* C141: for a hybrid trace form `local_TEW` takes values from the CHARACTERISTIC element only; with a partial `local` the sides of a given element can be missing. Vectors that disagree on a common trace element are accepted and lose one of the values.
* C141: for a non-hybrid trace form `local_TEW` accepts sides that disagree on shared dofs; `local_TEW` and `local` then contradict each other.
* C142: vectorized reconstruction and energies pair `cochain.array`, the values of the dict `local` in order of insertion, with the geometry in element order; the setter of `local` checks only the number of elements and the shapes, so a dict filled in another order gives wrong values without an error (`C142_any_order_refuted`).
* C144: `___PRIVATE_operator_wedge___` of 2D 1-forms does not look at the orientations; for two forms of the same orientation it returns a symmetric matrix, so a form wedged with itself is not zero (`C144_same_orientation_refuted`).
* C144: `compute_Ln_norm` takes the n-th root of the integral of the n-th power without absolute values; for odd n it is not a norm (`C144_odd_norm_refuted`) and for a negative integral the root is nan.
* C146: the errors raise signed differences to the power n. For odd n different fields can have error 0 (`C146_odd_zero_refuted`) and a negative sum gives nan in 2D and on triangles (3D asserts) (`C146_odd_number_refuted`).
* C147: `error.L(upon=True)` reads `self._sf_.func.body`; forms have `CF` and no attribute `func`, so the branch always fails; it does so on the master core while the others wait in `bcast` (`C147_upon_refuted`).
* C147: for `quad_density` below one node per element the L-infinity error uses 3 nodes per axis, more than for densities just above (`C147_more_nodes_refuted`).
* C148: `+` and `-` of forms compare class, mesh and space only. An outer and an inner, or a hybrid and a non-hybrid, 3D form are added and the result takes the options of the left one (`C148_orientation_refuted`, `C148_order_refuted`).
* C148: sums of hybrid triangular forms are built with the default `hybrid=False` (`C148_hybrid_refuted`).
* C148: 2D forms have no `__sub__`, and `-a` raises in 3D.
* C151: `shape_indicator` writes the coordinates with `%.4f`, so cells smaller than about 1e-4 (or differing by less) share Jacobian caches and mass matrices although their sizes differ (`C151_fine_refuted`).
* C151: `_0x1_ip_1.py` keys its cache by u alone (its comment: no need to care about the orientations). With u outer and e inner, cells of equal key of u can have different signs for e, and the cached array has wrong signs (`C151_mixed_refuted`).
* C152: `vector_of_3_standard_0forms` reads `self._sf_.IS_hybrid`, which forms do not have (it is `whether.hybrid`), and for 2-forms passes it as `is_hybrid`, which 0-forms do not take; so it and vortex detection raise an exception as written.
* C153: vortex detection adds the squares of the entries of S and Omega instead of the matrix products S S and Omega Omega. Q is then never positive and lambda_2 of solid body rotation is 0 instead of negative: no such vortex is found (`C153_Q_refuted`, `C153_lambda2_refuted`, `C153_never_positive`).
* C154: the setter of `local_ESW` of local trace forms says that the cochain is full when the elements given are, even if others are missing (`C154_full_refuted`). If sides disagree where they share a dof, the last one is in the cochain but `on_element_side` returns the others (`C154_sides_refuted`).
* C155: `local_dofs_on_element_side` keeps a range and `dofs_on_element_side` the two ends of it in the same cache; calling both for a side of a hybrid local trace form raises ValueError, gives fewer dofs, or gives the ends (`C155_raises_refuted`, `C155_wrong_refuted`, `C155_ends_refuted`). The boundary conditions use the one and `boundary_dofs` the other.
* `do.p_refine` of local trace forms does not pass `hybrid`, so a refined form is of the default kind.
* C158: a 2D region whose sides differ from a right angle by less than 1.5e-7 and whose left side is turned by less than 1e-12 is taken for orthogonal, so its mark has the lengths only and a sheared region shares the mark, and the cached metric, of a rectangle (`C158_same_orthogonal_refuted`). A rectangle turned by the same small angle in the other direction has an angle next to 2 pi and is taken for a parallelogram. Lengths and angles of opposite sides are compared with `==`, so with floats a parallelogram may be chaotic or raise "no interaction!".
* C64: the setter of `cochain.globe` of miUsGrid forms (`objects/miUsGrid/base/form/standard/cochain.py` 74-132) is, read side by side, the same code up to the name of its parameter, with the same `np.empty` (line 92). Of the vectors its own getter makes only those of volume forms (`ndim == k`, line 48) are not in the master core; other distributed vectors can reach it too. This file itself is not modelled.
* C159: a 3D region of type transfinite with six plane sides that is no axis-parallel box raises NotImplementedError when it is made, also if its map is affine (`C159_total_refuted`); the 2D code has a type for parallelograms.

## Reading seeded/LOG.jsonl

Each line is one wrong edit of a model definition in a scratch copy. The first lemma whose proof script fails is replaced by an axiom and the build goes on;
`failed` lists the property theorems that then rest on such an axiom (Print Assumptions), `failed_lemmas` the lemmas replaced. So `failed` says that the proof
of a theorem no longer goes through after the edit. It does not say that each listed statement is false for the edited model: some of them may still be true
by another proof, in particular those listed only because they share a lemma. Attempts that did not build far enough to tell, edits that turned out to be
equivalent and edits no theorem noticed say so in `note`.

## Not modelled

Plotting, file formats other than the row oriented runner tables, floating point
rounding (except where stated), performance caches with no observable effect, the nodes
and weights of the quadrature rules (the discretization and mass matrix theorems take any
rule, with exactness as a hypothesis where it is needed), the geometry of particular
domains beyond the region and element mappings named in the model files, solvers of
scipy/PETSc (oracles), tools for testing and timing, and the 2D/1D and mpRfT object
families except where a property names them. A property with no entry in
MANIFEST.json has no theorem yet.

## Assumptions per theorem

As reported by `Print Assumptions`:

* `C138_accepts`: `ClassicalDedekindReals.sig_forall_dec`
* `C138_set_get`: `ClassicalDedekindReals.sig_forall_dec`
* `C138_get_set`: `ClassicalDedekindReals.sig_forall_dec`
* `C138_full`: `ClassicalDedekindReals.sig_forall_dec`
* `C138_distributed_refuted`: `ClassicalDedekindReals.sig_forall_dec`, `FunctionalExtensionality.functional_extensionality_dep`
* `C139_accepts`: `ClassicalDedekindReals.sig_forall_dec`, `FunctionalExtensionality.functional_extensionality_dep`
* `C139_weak`: `ClassicalDedekindReals.sig_forall_dec`, `FunctionalExtensionality.functional_extensionality_dep`
* `C139_unique`: `ClassicalDedekindReals.sig_forall_dec`, `FunctionalExtensionality.functional_extensionality_dep`
* `C139_ones`: `ClassicalDedekindReals.sig_forall_dec`, `FunctionalExtensionality.functional_extensionality_dep`
* `C139_sum`: `ClassicalDedekindReals.sig_forall_dec`, `FunctionalExtensionality.functional_extensionality_dep`
* `C139_twice`: `ClassicalDedekindReals.sig_forall_dec`, `FunctionalExtensionality.functional_extensionality_dep`
* `C140_primes`: `ClassicalDedekindReals.sig_forall_dec`, `FunctionalExtensionality.functional_extensionality_dep`
* `C140_gradient`: `ClassicalDedekindReals.sig_not_dec`, `ClassicalDedekindReals.sig_forall_dec`, `FunctionalExtensionality.functional_extensionality_dep`
* `C140_divergence`: `ClassicalDedekindReals.sig_not_dec`, `ClassicalDedekindReals.sig_forall_dec`, `FunctionalExtensionality.functional_extensionality_dep`
* `C140_shared`: `ClassicalDedekindReals.sig_not_dec`, `ClassicalDedekindReals.sig_forall_dec`, `FunctionalExtensionality.functional_extensionality_dep`
* `C140_sides`: `ClassicalDedekindReals.sig_not_dec`, `ClassicalDedekindReals.sig_forall_dec`, `FunctionalExtensionality.functional_extensionality_dep`
* `C150_integral`: `ClassicalDedekindReals.sig_forall_dec`, `FunctionalExtensionality.functional_extensionality_dep`
* `C150_triangle`: `ClassicalDedekindReals.sig_forall_dec`, `FunctionalExtensionality.functional_extensionality_dep`
* `C150_matrices`: `ClassicalDedekindReals.sig_forall_dec`, `FunctionalExtensionality.functional_extensionality_dep`
* `C150_skew`: `ClassicalDedekindReals.sig_forall_dec`, `FunctionalExtensionality.functional_extensionality_dep`
* `C150_metric_free`: `ClassicalDedekindReals.sig_forall_dec`, `FunctionalExtensionality.functional_extensionality_dep`
* `C151_mass0`: `ClassicalDedekindReals.sig_forall_dec`, `FunctionalExtensionality.functional_extensionality_dep`
* `C151_mass1`: `ClassicalDedekindReals.sig_forall_dec`, `FunctionalExtensionality.functional_extensionality_dep`
* `C151_mass2`: `ClassicalDedekindReals.sig_forall_dec`, `FunctionalExtensionality.functional_extensionality_dep`
* `C151_lattice`: `ClassicalDedekindReals.sig_forall_dec`, `FunctionalExtensionality.functional_extensionality_dep`
* `C151_fine_refuted`: `ClassicalDedekindReals.sig_forall_dec`, `FunctionalExtensionality.functional_extensionality_dep`
* `C151_cross`: `ClassicalDedekindReals.sig_forall_dec`, `FunctionalExtensionality.functional_extensionality_dep`
* `C151_mixed_refuted`: `ClassicalDedekindReals.sig_forall_dec`, `FunctionalExtensionality.functional_extensionality_dep`
* `C103_constant_partial`: `ClassicalDedekindReals.sig_forall_dec`, `FunctionalExtensionality.functional_extensionality_dep`
* `C103_order_refuted`: `ClassicalDedekindReals.sig_forall_dec`, `FunctionalExtensionality.functional_extensionality_dep`
* `C103_shape`: `ClassicalDedekindReals.sig_forall_dec`, `FunctionalExtensionality.functional_extensionality_dep`
* `C103_2M1`: `ClassicalDedekindReals.sig_forall_dec`, `FunctionalExtensionality.functional_extensionality_dep`
* `C103_2M0`: `ClassicalDedekindReals.sig_forall_dec`, `FunctionalExtensionality.functional_extensionality_dep`
* `C103_2M0_refuted`: `ClassicalDedekindReals.sig_forall_dec`, `FunctionalExtensionality.functional_extensionality_dep`
* `C104_array`: `ClassicalDedekindReals.sig_forall_dec`, `FunctionalExtensionality.functional_extensionality_dep`
* `C104_vector`: `ClassicalDedekindReals.sig_forall_dec`, `FunctionalExtensionality.functional_extensionality_dep`
* `C104_inner_curl`: `ClassicalDedekindReals.sig_forall_dec`, `FunctionalExtensionality.functional_extensionality_dep`
* `C87_chain_rule`: `ClassicalDedekindReals.sig_forall_dec`, `FunctionalExtensionality.functional_extensionality_dep`
* `C87_orthogonal`: `ClassicalDedekindReals.sig_forall_dec`, `FunctionalExtensionality.functional_extensionality_dep`
* `C87_inverse`: `ClassicalDedekindReals.sig_forall_dec`, `FunctionalExtensionality.functional_extensionality_dep`
* `C87_neighbours`: `ClassicalDedekindReals.sig_forall_dec`, `FunctionalExtensionality.functional_extensionality_dep`
* `C87_side`: `ClassicalDedekindReals.sig_not_dec`, `ClassicalDedekindReals.sig_forall_dec`, `FunctionalExtensionality.functional_extensionality_dep`
* `C87_side_inverse`: `ClassicalDedekindReals.sig_forall_dec`, `FunctionalExtensionality.functional_extensionality_dep`
* `C87_neighbour_normal`: `ClassicalDedekindReals.sig_not_dec`, `ClassicalDedekindReals.sig_forall_dec`, `FunctionalExtensionality.functional_extensionality_dep`
* `C88_tangential`: `ClassicalDedekindReals.sig_not_dec`, `ClassicalDedekindReals.sig_forall_dec`, `FunctionalExtensionality.functional_extensionality_dep`
* `C88_intrinsic_partial`: `ClassicalDedekindReals.sig_not_dec`, `ClassicalDedekindReals.sig_forall_dec`, `FunctionalExtensionality.functional_extensionality_dep`
* `C88_same_from_both_elements_refuted`: `ClassicalDedekindReals.sig_not_dec`, `ClassicalDedekindReals.sig_forall_dec`, `FunctionalExtensionality.functional_extensionality_dep`
* `C95_nodes`: `ClassicalDedekindReals.sig_forall_dec`, `FunctionalExtensionality.functional_extensionality_dep`
* `C95_inner`: `ClassicalDedekindReals.sig_forall_dec`, `FunctionalExtensionality.functional_extensionality_dep`
* `C95_outer`: `ClassicalDedekindReals.sig_forall_dec`, `FunctionalExtensionality.functional_extensionality_dep`
* `C95_faces`: `ClassicalDedekindReals.sig_forall_dec`, `FunctionalExtensionality.functional_extensionality_dep`
* `C95_gradient`: `ClassicalDedekindReals.sig_forall_dec`, `FunctionalExtensionality.functional_extensionality_dep`
* `C95_rotated_gradient`: `ClassicalDedekindReals.sig_forall_dec`, `FunctionalExtensionality.functional_extensionality_dep`
* `C95_rotation`: `ClassicalDedekindReals.sig_forall_dec`, `FunctionalExtensionality.functional_extensionality_dep`
* `C95_divergence`: `ClassicalDedekindReals.sig_forall_dec`, `FunctionalExtensionality.functional_extensionality_dep`
* `C96_jacobian`: `ClassicalDedekindReals.sig_forall_dec`, `FunctionalExtensionality.functional_extensionality_dep`
* `C96_inverse`: `ClassicalDedekindReals.sig_forall_dec`, `FunctionalExtensionality.functional_extensionality_dep`
* `C96_inverse_determinant`: `ClassicalDedekindReals.sig_forall_dec`, `FunctionalExtensionality.functional_extensionality_dep`
* `C96_metric_matrix`: `ClassicalDedekindReals.sig_forall_dec`, `FunctionalExtensionality.functional_extensionality_dep`
* `C96_metric`: `ClassicalDedekindReals.sig_forall_dec`, `FunctionalExtensionality.functional_extensionality_dep`
* `C96_inverse_metric_matrix`: `ClassicalDedekindReals.sig_forall_dec`, `FunctionalExtensionality.functional_extensionality_dep`
* `C91_nodes`: `ClassicalDedekindReals.sig_forall_dec`, `FunctionalExtensionality.functional_extensionality_dep`
* `C91_edges`: `ClassicalDedekindReals.sig_forall_dec`, `FunctionalExtensionality.functional_extensionality_dep`
* `C91_faces`: `ClassicalDedekindReals.sig_forall_dec`, `FunctionalExtensionality.functional_extensionality_dep`
* `C91_volumes`: `ClassicalDedekindReals.sig_forall_dec`, `FunctionalExtensionality.functional_extensionality_dep`
* `C92_gradient`: `ClassicalDedekindReals.sig_forall_dec`, `FunctionalExtensionality.functional_extensionality_dep`
* `C93_curl`: `ClassicalDedekindReals.sig_forall_dec`, `FunctionalExtensionality.functional_extensionality_dep`
* `C94_divergence`: `ClassicalDedekindReals.sig_forall_dec`, `FunctionalExtensionality.functional_extensionality_dep`
* `C146_structured2`: `ClassicalDedekindReals.sig_not_dec`, `ClassicalDedekindReals.sig_forall_dec`, `FunctionalExtensionality.functional_extensionality_dep`, `Classical_Prop.classic`
* `C146_triangles`: `ClassicalDedekindReals.sig_not_dec`, `ClassicalDedekindReals.sig_forall_dec`, `FunctionalExtensionality.functional_extensionality_dep`, `Classical_Prop.classic`
* `C146_structured3`: `ClassicalDedekindReals.sig_not_dec`, `ClassicalDedekindReals.sig_forall_dec`, `FunctionalExtensionality.functional_extensionality_dep`, `Classical_Prop.classic`
* `C146_cores`: `ClassicalDedekindReals.sig_not_dec`, `ClassicalDedekindReals.sig_forall_dec`, `FunctionalExtensionality.functional_extensionality_dep`, `Classical_Prop.classic`
* `C146_even`: `ClassicalDedekindReals.sig_not_dec`, `ClassicalDedekindReals.sig_forall_dec`, `FunctionalExtensionality.functional_extensionality_dep`, `Classical_Prop.classic`
* `C146_zero2`: `ClassicalDedekindReals.sig_not_dec`, `ClassicalDedekindReals.sig_forall_dec`, `FunctionalExtensionality.functional_extensionality_dep`, `Classical_Prop.classic`
* `C146_zero_triangles`: `ClassicalDedekindReals.sig_not_dec`, `ClassicalDedekindReals.sig_forall_dec`, `FunctionalExtensionality.functional_extensionality_dep`, `Classical_Prop.classic`
* `C146_zero3`: `ClassicalDedekindReals.sig_not_dec`, `ClassicalDedekindReals.sig_forall_dec`, `FunctionalExtensionality.functional_extensionality_dep`, `Classical_Prop.classic`
* `C146_discretized2`: `ClassicalDedekindReals.sig_not_dec`, `ClassicalDedekindReals.sig_forall_dec`, `FunctionalExtensionality.functional_extensionality_dep`, `Classical_Prop.classic`
* `C146_discretized3`: `ClassicalDedekindReals.sig_not_dec`, `ClassicalDedekindReals.sig_forall_dec`, `FunctionalExtensionality.functional_extensionality_dep`, `Classical_Prop.classic`
* `C146_odd_zero_refuted`: `ClassicalDedekindReals.sig_not_dec`, `ClassicalDedekindReals.sig_forall_dec`, `FunctionalExtensionality.functional_extensionality_dep`, `Classical_Prop.classic`
* `C146_odd_number_refuted`: `ClassicalDedekindReals.sig_not_dec`, `ClassicalDedekindReals.sig_forall_dec`, `FunctionalExtensionality.functional_extensionality_dep`, `Classical_Prop.classic`
* `C147_infinity`: `ClassicalDedekindReals.sig_forall_dec`, `FunctionalExtensionality.functional_extensionality_dep`
* `C147_no_elements`: `ClassicalDedekindReals.sig_forall_dec`, `FunctionalExtensionality.functional_extensionality_dep`
* `C147_nodes`: `ClassicalDedekindReals.sig_forall_dec`, `FunctionalExtensionality.functional_extensionality_dep`
* `C147_more_nodes_refuted`: `ClassicalDedekindReals.sig_forall_dec`, `FunctionalExtensionality.functional_extensionality_dep`
* `C147_upon_constants`: `ClassicalDedekindReals.sig_not_dec`, `ClassicalDedekindReals.sig_forall_dec`, `FunctionalExtensionality.functional_extensionality_dep`, `Classical_Prop.classic`
* `C147_upon_exact`: `ClassicalDedekindReals.sig_not_dec`, `ClassicalDedekindReals.sig_forall_dec`, `FunctionalExtensionality.functional_extensionality_dep`, `Classical_Prop.classic`
* `C147_upon_refuted`: `ClassicalDedekindReals.sig_not_dec`, `ClassicalDedekindReals.sig_forall_dec`, `FunctionalExtensionality.functional_extensionality_dep`, `Classical_Prop.classic`
* `C147_H`: `ClassicalDedekindReals.sig_not_dec`, `ClassicalDedekindReals.sig_forall_dec`, `FunctionalExtensionality.functional_extensionality_dep`, `Classical_Prop.classic`
* `C147_H_zero`: `ClassicalDedekindReals.sig_not_dec`, `ClassicalDedekindReals.sig_forall_dec`, `FunctionalExtensionality.functional_extensionality_dep`, `Classical_Prop.classic`
* `C127_navier_stokes`: `ClassicalDedekindReals.sig_forall_dec`, `FunctionalExtensionality.functional_extensionality_dep`
* `C127_vorticity`: `ClassicalDedekindReals.sig_forall_dec`, `FunctionalExtensionality.functional_extensionality_dep`
* `C127_total_pressure`: `ClassicalDedekindReals.sig_forall_dec`, `FunctionalExtensionality.functional_extensionality_dep`
* `C127_curl_of_vorticity`: `ClassicalDedekindReals.sig_forall_dec`, `FunctionalExtensionality.functional_extensionality_dep`
* `C127_solenoidal_curl`: `ClassicalDedekindReals.sig_forall_dec`, `FunctionalExtensionality.functional_extensionality_dep`
* `C127_densities`: `ClassicalDedekindReals.sig_forall_dec`, `FunctionalExtensionality.functional_extensionality_dep`
* `C127_stokes`: `ClassicalDedekindReals.sig_forall_dec`, `FunctionalExtensionality.functional_extensionality_dep`
* `C128_momentum`: `ClassicalDedekindReals.sig_forall_dec`, `FunctionalExtensionality.functional_extensionality_dep`
* `C128_as1_refuted`: `ClassicalDedekindReals.sig_forall_dec`, `FunctionalExtensionality.functional_extensionality_dep`
* `C128_as2`: `ClassicalDedekindReals.sig_not_dec`, `ClassicalDedekindReals.sig_forall_dec`, `FunctionalExtensionality.functional_extensionality_dep`
* `C128_sin_cos`: `ClassicalDedekindReals.sig_not_dec`, `ClassicalDedekindReals.sig_forall_dec`, `FunctionalExtensionality.functional_extensionality_dep`
* `C128_as3`: `ClassicalDedekindReals.sig_not_dec`, `ClassicalDedekindReals.sig_forall_dec`, `FunctionalExtensionality.functional_extensionality_dep`
* `C128_as1_magnetic`: `ClassicalDedekindReals.sig_forall_dec`, `FunctionalExtensionality.functional_extensionality_dep`
* `C128_vorticity`: `ClassicalDedekindReals.sig_forall_dec`, `FunctionalExtensionality.functional_extensionality_dep`
* `C128_electric`: `ClassicalDedekindReals.sig_forall_dec`, `FunctionalExtensionality.functional_extensionality_dep`
* `C128_reynolds`: `ClassicalDedekindReals.sig_forall_dec`, `FunctionalExtensionality.functional_extensionality_dep`
* `C128_induction`: `ClassicalDedekindReals.sig_forall_dec`, `FunctionalExtensionality.functional_extensionality_dep`
* `C128_numbers`: `ClassicalDedekindReals.sig_forall_dec`, `FunctionalExtensionality.functional_extensionality_dep`
* `C129_navier_stokes`: `ClassicalDedekindReals.sig_forall_dec`, `FunctionalExtensionality.functional_extensionality_dep`
* `C129_incompressible`: `ClassicalDedekindReals.sig_forall_dec`, `FunctionalExtensionality.functional_extensionality_dep`
* `C129_euler`: `ClassicalDedekindReals.sig_forall_dec`, `FunctionalExtensionality.functional_extensionality_dep`
* `C129_made`: `ClassicalDedekindReals.sig_forall_dec`, `FunctionalExtensionality.functional_extensionality_dep`
* `C129_palinstrophy`: `ClassicalDedekindReals.sig_forall_dec`, `FunctionalExtensionality.functional_extensionality_dep`
* `C129_taylor_green`: `ClassicalDedekindReals.sig_not_dec`, `ClassicalDedekindReals.sig_forall_dec`, `FunctionalExtensionality.functional_extensionality_dep`
* `C130_poisson`: `ClassicalDedekindReals.sig_forall_dec`, `FunctionalExtensionality.functional_extensionality_dep`
* `C130_poisson_case`: `ClassicalDedekindReals.sig_not_dec`, `ClassicalDedekindReals.sig_forall_dec`, `FunctionalExtensionality.functional_extensionality_dep`
* `C130_wave`: `ClassicalDedekindReals.sig_forall_dec`, `FunctionalExtensionality.functional_extensionality_dep`
* `C130_wave_case`: `ClassicalDedekindReals.sig_not_dec`, `ClassicalDedekindReals.sig_forall_dec`, `FunctionalExtensionality.functional_extensionality_dep`
* `C130_schroedinger`: `ClassicalDedekindReals.sig_forall_dec`, `FunctionalExtensionality.functional_extensionality_dep`
* `C130_schroedinger_case`: `ClassicalDedekindReals.sig_not_dec`, `ClassicalDedekindReals.sig_forall_dec`, `FunctionalExtensionality.functional_extensionality_dep`
* `C130_stokes_case`: `ClassicalDedekindReals.sig_not_dec`, `ClassicalDedekindReals.sig_forall_dec`, `FunctionalExtensionality.functional_extensionality_dep`
* `C130_laplace`: `ClassicalDedekindReals.sig_forall_dec`, `FunctionalExtensionality.functional_extensionality_dep`
* `C130_laplace_case`: `ClassicalDedekindReals.sig_not_dec`, `ClassicalDedekindReals.sig_forall_dec`, `FunctionalExtensionality.functional_extensionality_dep`
* `C130_stokes2`: `ClassicalDedekindReals.sig_forall_dec`, `FunctionalExtensionality.functional_extensionality_dep`
* `C130_stokes2_case`: `ClassicalDedekindReals.sig_not_dec`, `ClassicalDedekindReals.sig_forall_dec`, `FunctionalExtensionality.functional_extensionality_dep`
* `C131_dissipation`: `ClassicalDedekindReals.sig_not_dec`, `ClassicalDedekindReals.sig_forall_dec`, `FunctionalExtensionality.functional_extensionality_dep`
* `C131_conservation`: `ClassicalDedekindReals.sig_not_dec`, `ClassicalDedekindReals.sig_forall_dec`, `FunctionalExtensionality.functional_extensionality_dep`
* `C131_taylor_green`: `ClassicalDedekindReals.sig_not_dec`, `ClassicalDedekindReals.sig_forall_dec`, `FunctionalExtensionality.functional_extensionality_dep`
* `C131_solenoidal`: `ClassicalDedekindReals.sig_not_dec`, `ClassicalDedekindReals.sig_forall_dec`, `FunctionalExtensionality.functional_extensionality_dep`
* `C132_dipole_partial`: `ClassicalDedekindReals.sig_not_dec`, `ClassicalDedekindReals.sig_forall_dec`, `FunctionalExtensionality.functional_extensionality_dep`
* `C132_dipole_derivatives`: `ClassicalDedekindReals.sig_not_dec`, `ClassicalDedekindReals.sig_forall_dec`, `FunctionalExtensionality.functional_extensionality_dep`
* `C132_dipole_refuted`: `ClassicalDedekindReals.sig_not_dec`, `ClassicalDedekindReals.sig_forall_dec`, `FunctionalExtensionality.functional_extensionality_dep`
* `C132_outline_partial`: `ClassicalDedekindReals.sig_forall_dec`, `FunctionalExtensionality.functional_extensionality_dep`
* `C132_outline_refuted`: `ClassicalDedekindReals.sig_forall_dec`, `FunctionalExtensionality.functional_extensionality_dep`
* `C132_channel_partial`: `ClassicalDedekindReals.sig_forall_dec`, `FunctionalExtensionality.functional_extensionality_dep`
* `C132_wall_refuted`: `ClassicalDedekindReals.sig_forall_dec`, `FunctionalExtensionality.functional_extensionality_dep`
* `C132_lengths_refuted`: `ClassicalDedekindReals.sig_forall_dec`, `FunctionalExtensionality.functional_extensionality_dep`
* `C133_shear_continuous`: `ClassicalDedekindReals.sig_not_dec`, `ClassicalDedekindReals.sig_forall_dec`, `FunctionalExtensionality.functional_extensionality_dep`
* `C133_shear_periodic`: `ClassicalDedekindReals.sig_not_dec`, `ClassicalDedekindReals.sig_forall_dec`, `FunctionalExtensionality.functional_extensionality_dep`
* `C133_shear_solenoidal`: `ClassicalDedekindReals.sig_not_dec`, `ClassicalDedekindReals.sig_forall_dec`, `FunctionalExtensionality.functional_extensionality_dep`
* `C133_shear_value`: `ClassicalDedekindReals.sig_not_dec`, `ClassicalDedekindReals.sig_forall_dec`, `FunctionalExtensionality.functional_extensionality_dep`
* `C148_multiple`: `ClassicalDedekindReals.sig_forall_dec`
* `C148_named`: `ClassicalDedekindReals.sig_forall_dec`
* `C148_product_names`: `ClassicalDedekindReals.sig_forall_dec`
* `C148_commutative`: `ClassicalDedekindReals.sig_forall_dec`, `FunctionalExtensionality.functional_extensionality_dep`
* `C148_associative`: `ClassicalDedekindReals.sig_forall_dec`, `FunctionalExtensionality.functional_extensionality_dep`
* `C148_difference`: `ClassicalDedekindReals.sig_forall_dec`, `FunctionalExtensionality.functional_extensionality_dep`
* `C148_difference_2d`: `ClassicalDedekindReals.sig_forall_dec`, `FunctionalExtensionality.functional_extensionality_dep`
* `C148_distributive`: `ClassicalDedekindReals.sig_forall_dec`, `FunctionalExtensionality.functional_extensionality_dep`
* `C148_order_refuted`: `ClassicalDedekindReals.sig_forall_dec`
* `C148_orientation_refuted`: `ClassicalDedekindReals.sig_forall_dec`
* `C148_hybrid_refuted`: `ClassicalDedekindReals.sig_forall_dec`
* `C149_linear`: `ClassicalDedekindReals.sig_forall_dec`, `FunctionalExtensionality.functional_extensionality_dep`
* `C149_multiple`: `ClassicalDedekindReals.sig_forall_dec`, `FunctionalExtensionality.functional_extensionality_dep`
* `C122_error`: `ClassicalDedekindReals.sig_not_dec`, `ClassicalDedekindReals.sig_forall_dec`, `FunctionalExtensionality.functional_extensionality_dep`, `Classical_Prop.classic`
* `C122_partial3`: `ClassicalDedekindReals.sig_not_dec`, `ClassicalDedekindReals.sig_forall_dec`, `FunctionalExtensionality.functional_extensionality_dep`, `Classical_Prop.classic`
* `C122_partial2`: `ClassicalDedekindReals.sig_not_dec`, `ClassicalDedekindReals.sig_forall_dec`, `FunctionalExtensionality.functional_extensionality_dep`, `Classical_Prop.classic`
* `C122_cubic`: `ClassicalDedekindReals.sig_forall_dec`, `FunctionalExtensionality.functional_extensionality_dep`
* `C122_check`: `ClassicalDedekindReals.sig_forall_dec`, `FunctionalExtensionality.functional_extensionality_dep`
* `C122_check_sound`: `ClassicalDedekindReals.sig_not_dec`, `ClassicalDedekindReals.sig_forall_dec`, `FunctionalExtensionality.functional_extensionality_dep`, `Classical_Prop.classic`
* `C123_gradient`: `ClassicalDedekindReals.sig_forall_dec`, `FunctionalExtensionality.functional_extensionality_dep`
* `C123_time`: `ClassicalDedekindReals.sig_forall_dec`, `FunctionalExtensionality.functional_extensionality_dep`
* `C123_time_vector`: `ClassicalDedekindReals.sig_forall_dec`, `FunctionalExtensionality.functional_extensionality_dep`
* `C123_divergence`: `ClassicalDedekindReals.sig_forall_dec`, `FunctionalExtensionality.functional_extensionality_dep`
* `C123_curl`: `ClassicalDedekindReals.sig_forall_dec`, `FunctionalExtensionality.functional_extensionality_dep`
* `C123_convection`: `ClassicalDedekindReals.sig_forall_dec`, `FunctionalExtensionality.functional_extensionality_dep`
* `C123_convection_scalar`: `ClassicalDedekindReals.sig_forall_dec`, `FunctionalExtensionality.functional_extensionality_dep`
* `C123_accepted_gradient`: `ClassicalDedekindReals.sig_forall_dec`, `FunctionalExtensionality.functional_extensionality_dep`
* `C123_accepted_divergence`: `ClassicalDedekindReals.sig_forall_dec`, `FunctionalExtensionality.functional_extensionality_dep`
* `C123_accepted_curl`: `ClassicalDedekindReals.sig_forall_dec`, `FunctionalExtensionality.functional_extensionality_dep`
* `C123_curl_gradient`: `ClassicalDedekindReals.sig_forall_dec`, `FunctionalExtensionality.functional_extensionality_dep`
* `C123_time_gradient`: `ClassicalDedekindReals.sig_forall_dec`, `FunctionalExtensionality.functional_extensionality_dep`
* `C124_composition_refuted`: `ClassicalDedekindReals.sig_forall_dec`, `FunctionalExtensionality.functional_extensionality_dep`
* `C125_gradient`: `ClassicalDedekindReals.sig_forall_dec`, `FunctionalExtensionality.functional_extensionality_dep`
* `C125_time`: `ClassicalDedekindReals.sig_forall_dec`, `FunctionalExtensionality.functional_extensionality_dep`
* `C125_time_vector`: `ClassicalDedekindReals.sig_forall_dec`, `FunctionalExtensionality.functional_extensionality_dep`
* `C125_curl`: `ClassicalDedekindReals.sig_forall_dec`, `FunctionalExtensionality.functional_extensionality_dep`
* `C125_divergence`: `ClassicalDedekindReals.sig_forall_dec`, `FunctionalExtensionality.functional_extensionality_dep`
* `C125_rot`: `ClassicalDedekindReals.sig_forall_dec`, `FunctionalExtensionality.functional_extensionality_dep`
* `C125_convection`: `ClassicalDedekindReals.sig_forall_dec`, `FunctionalExtensionality.functional_extensionality_dep`
* `C125_convection_scalar`: `ClassicalDedekindReals.sig_forall_dec`, `FunctionalExtensionality.functional_extensionality_dep`
* `C125_rot_gradient`: `ClassicalDedekindReals.sig_forall_dec`, `FunctionalExtensionality.functional_extensionality_dep`
* `C125_divergence_curl`: `ClassicalDedekindReals.sig_forall_dec`, `FunctionalExtensionality.functional_extensionality_dep`
* `C125_rot_curl`: `ClassicalDedekindReals.sig_forall_dec`, `FunctionalExtensionality.functional_extensionality_dep`
* `C126_dot`: `ClassicalDedekindReals.sig_forall_dec`
* `C126_determinant`: `ClassicalDedekindReals.sig_forall_dec`, `FunctionalExtensionality.functional_extensionality_dep`
* `C126_orthogonal`: `ClassicalDedekindReals.sig_forall_dec`, `FunctionalExtensionality.functional_extensionality_dep`
* `C126_antisymmetric`: `ClassicalDedekindReals.sig_forall_dec`, `FunctionalExtensionality.functional_extensionality_dep`
* `C126_lagrange`: `ClassicalDedekindReals.sig_forall_dec`, `FunctionalExtensionality.functional_extensionality_dep`
* `C126_triple`: `ClassicalDedekindReals.sig_forall_dec`, `FunctionalExtensionality.functional_extensionality_dep`
* `C126_linear`: `ClassicalDedekindReals.sig_forall_dec`, `FunctionalExtensionality.functional_extensionality_dep`
* `C126_plane`: `ClassicalDedekindReals.sig_forall_dec`, `FunctionalExtensionality.functional_extensionality_dep`
* `C89_elements_partial`: `ClassicalDedekindReals.sig_forall_dec`, `FunctionalExtensionality.functional_extensionality_dep`
* `C89_close`: `ClassicalDedekindReals.sig_forall_dec`, `FunctionalExtensionality.functional_extensionality_dep`
* `C89_elements_refuted`: `ClassicalDedekindReals.sig_forall_dec`, `FunctionalExtensionality.functional_extensionality_dep`
* `C89_sides_partial`: `ClassicalDedekindReals.sig_forall_dec`, `FunctionalExtensionality.functional_extensionality_dep`
* `C89_sides_refuted`: `ClassicalDedekindReals.sig_not_dec`, `ClassicalDedekindReals.sig_forall_dec`, `FunctionalExtensionality.functional_extensionality_dep`
* `C90_constant_iff`: `ClassicalDedekindReals.sig_not_dec`, `ClassicalDedekindReals.sig_forall_dec`, `FunctionalExtensionality.functional_extensionality_dep`
* `C90_constant_refuted`: `ClassicalDedekindReals.sig_not_dec`, `ClassicalDedekindReals.sig_forall_dec`, `FunctionalExtensionality.functional_extensionality_dep`
* `C90_constant_plane`: `ClassicalDedekindReals.sig_forall_dec`, `FunctionalExtensionality.functional_extensionality_dep`
* `C142_nodes`: `ClassicalDedekindReals.sig_forall_dec`, `FunctionalExtensionality.functional_extensionality_dep`
* `C142_edges`: `ClassicalDedekindReals.sig_forall_dec`, `FunctionalExtensionality.functional_extensionality_dep`
* `C142_faces`: `ClassicalDedekindReals.sig_forall_dec`, `FunctionalExtensionality.functional_extensionality_dep`
* `C142_matrices`: `ClassicalDedekindReals.sig_forall_dec`, `FunctionalExtensionality.functional_extensionality_dep`
* `C142_vectorized`: `ClassicalDedekindReals.sig_forall_dec`, `FunctionalExtensionality.functional_extensionality_dep`
* `C142_any_order_refuted`: `ClassicalDedekindReals.sig_forall_dec`, `FunctionalExtensionality.functional_extensionality_dep`
* `C143_nodes`: `ClassicalDedekindReals.sig_forall_dec`, `FunctionalExtensionality.functional_extensionality_dep`
* `C143_inner`: `ClassicalDedekindReals.sig_forall_dec`, `FunctionalExtensionality.functional_extensionality_dep`
* `C143_outer`: `ClassicalDedekindReals.sig_forall_dec`, `FunctionalExtensionality.functional_extensionality_dep`
* `C143_faces`: `ClassicalDedekindReals.sig_forall_dec`, `FunctionalExtensionality.functional_extensionality_dep`
* `C144_inner`: `ClassicalDedekindReals.sig_forall_dec`, `FunctionalExtensionality.functional_extensionality_dep`
* `C144_symmetric`: `ClassicalDedekindReals.sig_forall_dec`, `FunctionalExtensionality.functional_extensionality_dep`
* `C144_positive`: `ClassicalDedekindReals.sig_forall_dec`, `FunctionalExtensionality.functional_extensionality_dep`
* `C144_wedge`: `ClassicalDedekindReals.sig_forall_dec`, `FunctionalExtensionality.functional_extensionality_dep`
* `C144_same_orientation_refuted`: `ClassicalDedekindReals.sig_forall_dec`, `FunctionalExtensionality.functional_extensionality_dep`
* `C144_energies`: `ClassicalDedekindReals.sig_forall_dec`, `FunctionalExtensionality.functional_extensionality_dep`
* `C144_vectorized_energies`: `ClassicalDedekindReals.sig_forall_dec`, `FunctionalExtensionality.functional_extensionality_dep`
* `C144_L2`: `ClassicalDedekindReals.sig_forall_dec`, `FunctionalExtensionality.functional_extensionality_dep`
* `C144_odd_norm_refuted`: `ClassicalDedekindReals.sig_forall_dec`, `FunctionalExtensionality.functional_extensionality_dep`
* `C145_gradient`: `ClassicalDedekindReals.sig_forall_dec`, `FunctionalExtensionality.functional_extensionality_dep`
* `C145_rotated_gradient`: `ClassicalDedekindReals.sig_forall_dec`, `FunctionalExtensionality.functional_extensionality_dep`
* `C145_rotation`: `ClassicalDedekindReals.sig_forall_dec`, `FunctionalExtensionality.functional_extensionality_dep`
* `C145_divergence`: `ClassicalDedekindReals.sig_forall_dec`, `FunctionalExtensionality.functional_extensionality_dep`
* `C102_basis`: `ClassicalDedekindReals.sig_forall_dec`, `FunctionalExtensionality.functional_extensionality_dep`, `ClassicalEpsilon.constructive_indefinite_description`, `Classical_Prop.classic`
* `C102_separates`: `ClassicalDedekindReals.sig_forall_dec`, `FunctionalExtensionality.functional_extensionality_dep`, `ClassicalEpsilon.constructive_indefinite_description`, `Classical_Prop.classic`
* `C102_exact`: `ClassicalDedekindReals.sig_forall_dec`, `FunctionalExtensionality.functional_extensionality_dep`, `ClassicalEpsilon.constructive_indefinite_description`, `Classical_Prop.classic`
* `C97_nodes`: `ClassicalDedekindReals.sig_forall_dec`, `FunctionalExtensionality.functional_extensionality_dep`
* `C97_edges`: `ClassicalDedekindReals.sig_forall_dec`, `FunctionalExtensionality.functional_extensionality_dep`
* `C97_faces`: `ClassicalDedekindReals.sig_forall_dec`, `FunctionalExtensionality.functional_extensionality_dep`
* `C97_volumes`: `ClassicalDedekindReals.sig_forall_dec`, `FunctionalExtensionality.functional_extensionality_dep`
* `C97_matrix0`: `ClassicalDedekindReals.sig_forall_dec`, `FunctionalExtensionality.functional_extensionality_dep`
* `C97_matrix1`: `ClassicalDedekindReals.sig_forall_dec`, `FunctionalExtensionality.functional_extensionality_dep`
* `C97_matrix2`: `ClassicalDedekindReals.sig_forall_dec`, `FunctionalExtensionality.functional_extensionality_dep`
* `C97_matrix3`: `ClassicalDedekindReals.sig_forall_dec`, `FunctionalExtensionality.functional_extensionality_dep`
* `C98_nodes`: `ClassicalDedekindReals.sig_forall_dec`, `FunctionalExtensionality.functional_extensionality_dep`
* `C98_edges`: `ClassicalDedekindReals.sig_forall_dec`, `FunctionalExtensionality.functional_extensionality_dep`
* `C98_faces`: `ClassicalDedekindReals.sig_forall_dec`, `FunctionalExtensionality.functional_extensionality_dep`
* `C98_volumes`: `ClassicalDedekindReals.sig_forall_dec`, `FunctionalExtensionality.functional_extensionality_dep`
* `C99_nodes`: `ClassicalDedekindReals.sig_forall_dec`, `FunctionalExtensionality.functional_extensionality_dep`
* `C99_edges`: `ClassicalDedekindReals.sig_forall_dec`, `FunctionalExtensionality.functional_extensionality_dep`
* `C99_faces`: `ClassicalDedekindReals.sig_forall_dec`, `FunctionalExtensionality.functional_extensionality_dep`
* `C99_volumes`: `ClassicalDedekindReals.sig_forall_dec`, `FunctionalExtensionality.functional_extensionality_dep`
* `C99_symmetric_nodes`: `ClassicalDedekindReals.sig_forall_dec`, `FunctionalExtensionality.functional_extensionality_dep`
* `C99_symmetric_edges`: `ClassicalDedekindReals.sig_forall_dec`, `FunctionalExtensionality.functional_extensionality_dep`
* `C99_symmetric_faces`: `ClassicalDedekindReals.sig_forall_dec`, `FunctionalExtensionality.functional_extensionality_dep`
* `C99_symmetric_volumes`: `ClassicalDedekindReals.sig_forall_dec`, `FunctionalExtensionality.functional_extensionality_dep`
* `C99_definite_nodes`: `ClassicalDedekindReals.sig_forall_dec`, `FunctionalExtensionality.functional_extensionality_dep`
* `C99_definite_edges`: `ClassicalDedekindReals.sig_forall_dec`, `FunctionalExtensionality.functional_extensionality_dep`
* `C99_definite_faces`: `ClassicalDedekindReals.sig_forall_dec`, `FunctionalExtensionality.functional_extensionality_dep`
* `C99_definite_volumes`: `ClassicalDedekindReals.sig_forall_dec`, `FunctionalExtensionality.functional_extensionality_dep`
* `C100_reference`: `ClassicalDedekindReals.sig_forall_dec`, `FunctionalExtensionality.functional_extensionality_dep`
* `C100_element`: `ClassicalDedekindReals.sig_forall_dec`, `FunctionalExtensionality.functional_extensionality_dep`
* `C101_gradient`: `ClassicalDedekindReals.sig_forall_dec`, `FunctionalExtensionality.functional_extensionality_dep`
* `C101_curl`: `ClassicalDedekindReals.sig_forall_dec`, `FunctionalExtensionality.functional_extensionality_dep`
* `C101_divergence`: `ClassicalDedekindReals.sig_forall_dec`, `FunctionalExtensionality.functional_extensionality_dep`
* `C37_doubles`: `ClassicalDedekindReals.sig_not_dec`, `ClassicalDedekindReals.sig_forall_dec`, `FunctionalExtensionality.functional_extensionality_dep`, `Classical_Prop.classic`
* `C37_outputs`: `ClassicalDedekindReals.sig_not_dec`, `ClassicalDedekindReals.sig_forall_dec`, `FunctionalExtensionality.functional_extensionality_dep`, `Classical_Prop.classic`
* `C37_integers`: `ClassicalDedekindReals.sig_not_dec`, `ClassicalDedekindReals.sig_forall_dec`, `FunctionalExtensionality.functional_extensionality_dep`, `Classical_Prop.classic`
* `C37_integers_refuted`: `ClassicalDedekindReals.sig_not_dec`, `ClassicalDedekindReals.sig_forall_dec`, `FunctionalExtensionality.functional_extensionality_dep`, `Classical_Prop.classic`
* `C114_sides`: `ClassicalDedekindReals.sig_forall_dec`, `FunctionalExtensionality.functional_extensionality_dep`
* `C114_inside`: `ClassicalDedekindReals.sig_forall_dec`, `FunctionalExtensionality.functional_extensionality_dep`
* `C114_onto`: `ClassicalDedekindReals.sig_forall_dec`, `FunctionalExtensionality.functional_extensionality_dep`
* `C114_one_to_one`: `ClassicalDedekindReals.sig_forall_dec`, `FunctionalExtensionality.functional_extensionality_dep`
* `C114_jacobian`: `ClassicalDedekindReals.sig_forall_dec`, `FunctionalExtensionality.functional_extensionality_dep`
* `C114_determinant`: `ClassicalDedekindReals.sig_forall_dec`, `FunctionalExtensionality.functional_extensionality_dep`
* `C114_inverse`: `ClassicalDedekindReals.sig_forall_dec`, `FunctionalExtensionality.functional_extensionality_dep`
* `C114_singular_refuted`: `ClassicalDedekindReals.sig_forall_dec`, `FunctionalExtensionality.functional_extensionality_dep`
* `C115_nodes`: `ClassicalDedekindReals.sig_forall_dec`, `FunctionalExtensionality.functional_extensionality_dep`
* `C115_edges`: `ClassicalDedekindReals.sig_forall_dec`, `FunctionalExtensionality.functional_extensionality_dep`
* `C115_faces`: `ClassicalDedekindReals.sig_forall_dec`, `FunctionalExtensionality.functional_extensionality_dep`
* `C115_length`: `ClassicalDedekindReals.sig_forall_dec`, `FunctionalExtensionality.functional_extensionality_dep`
* `C115_gradients`: `ClassicalDedekindReals.sig_forall_dec`, `FunctionalExtensionality.functional_extensionality_dep`
* `C115_rotation_divergence`: `ClassicalDedekindReals.sig_forall_dec`, `FunctionalExtensionality.functional_extensionality_dep`
* `C116_nodes`: `ClassicalDedekindReals.sig_forall_dec`, `FunctionalExtensionality.functional_extensionality_dep`
* `C116_edges`: `ClassicalDedekindReals.sig_forall_dec`, `FunctionalExtensionality.functional_extensionality_dep`
* `C116_two_rules_refuted`: `ClassicalDedekindReals.sig_forall_dec`, `FunctionalExtensionality.functional_extensionality_dep`
* `C85_faces`: `ClassicalDedekindReals.sig_forall_dec`, `FunctionalExtensionality.functional_extensionality_dep`
* `C85_jacobian`: `ClassicalDedekindReals.sig_forall_dec`, `FunctionalExtensionality.functional_extensionality_dep`
* `C85_determinant`: `ClassicalDedekindReals.sig_forall_dec`, `FunctionalExtensionality.functional_extensionality_dep`
* `C85_plane_sides`: `ClassicalDedekindReals.sig_forall_dec`, `FunctionalExtensionality.functional_extensionality_dep`
* `C85_box`: `ClassicalDedekindReals.sig_forall_dec`, `FunctionalExtensionality.functional_extensionality_dep`
* `C85_crazy`: `ClassicalDedekindReals.sig_not_dec`, `ClassicalDedekindReals.sig_forall_dec`, `FunctionalExtensionality.functional_extensionality_dep`
* `C85_crazy_positive`: `ClassicalDedekindReals.sig_not_dec`, `ClassicalDedekindReals.sig_forall_dec`, `FunctionalExtensionality.functional_extensionality_dep`, `Classical_Prop.classic`
* `C85_crazy_bijection`: `ClassicalDedekindReals.sig_not_dec`, `ClassicalDedekindReals.sig_forall_dec`, `FunctionalExtensionality.functional_extensionality_dep`, `Classical_Prop.classic`
* `C85_crazy_plane`: `ClassicalDedekindReals.sig_not_dec`, `ClassicalDedekindReals.sig_forall_dec`, `FunctionalExtensionality.functional_extensionality_dep`, `Classical_Prop.classic`
* `C85_crazy_plane_boundary`: `ClassicalDedekindReals.sig_not_dec`, `ClassicalDedekindReals.sig_forall_dec`, `FunctionalExtensionality.functional_extensionality_dep`
* `C85_edges`: `ClassicalDedekindReals.sig_not_dec`, `ClassicalDedekindReals.sig_forall_dec`, `FunctionalExtensionality.functional_extensionality_dep`, `Classical_Prop.classic`
* `C85_arcs`: `ClassicalDedekindReals.sig_not_dec`, `ClassicalDedekindReals.sig_forall_dec`, `FunctionalExtensionality.functional_extensionality_dep`, `Classical_Prop.classic`
* `C85_plane_region`: `ClassicalDedekindReals.sig_not_dec`, `ClassicalDedekindReals.sig_forall_dec`, `FunctionalExtensionality.functional_extensionality_dep`, `Classical_Prop.classic`
* `C86_consistency_check_refuted`: `ClassicalDedekindReals.sig_forall_dec`, `FunctionalExtensionality.functional_extensionality_dep`
* `C86_consistency_check_passes`: `ClassicalDedekindReals.sig_forall_dec`, `FunctionalExtensionality.functional_extensionality_dep`
* `C86_crazy_folds`: `ClassicalDedekindReals.sig_not_dec`, `ClassicalDedekindReals.sig_forall_dec`, `FunctionalExtensionality.functional_extensionality_dep`, `Classical_Prop.classic`
* `C86_crazy_valid_refuted`: `ClassicalDedekindReals.sig_not_dec`, `ClassicalDedekindReals.sig_forall_dec`, `FunctionalExtensionality.functional_extensionality_dep`, `Classical_Prop.classic`
* `C86_volume_box`: `ClassicalDedekindReals.sig_forall_dec`, `FunctionalExtensionality.functional_extensionality_dep`
* `C86_volume_refuted`: `ClassicalDedekindReals.sig_not_dec`, `ClassicalDedekindReals.sig_forall_dec`, `FunctionalExtensionality.functional_extensionality_dep`, `Classical_Prop.classic`
* `C44_sides`: `ClassicalDedekindReals.sig_forall_dec`, `FunctionalExtensionality.functional_extensionality_dep`
* `C44_partials`: `ClassicalDedekindReals.sig_forall_dec`, `FunctionalExtensionality.functional_extensionality_dep`
* `C121_basis`: `ClassicalDedekindReals.sig_forall_dec`, `FunctionalExtensionality.functional_extensionality_dep`, `ClassicalEpsilon.constructive_indefinite_description`, `Classical_Prop.classic`
* `C117_nodes`: `ClassicalDedekindReals.sig_forall_dec`, `FunctionalExtensionality.functional_extensionality_dep`
* `C117_vertex`: `ClassicalDedekindReals.sig_not_dec`, `ClassicalDedekindReals.sig_forall_dec`, `FunctionalExtensionality.functional_extensionality_dep`, `Classical_Prop.classic`
* `C117_at_nodes`: `ClassicalDedekindReals.sig_forall_dec`, `FunctionalExtensionality.functional_extensionality_dep`
* `C117_edges`: `ClassicalDedekindReals.sig_forall_dec`, `FunctionalExtensionality.functional_extensionality_dep`
* `C117_faces`: `ClassicalDedekindReals.sig_forall_dec`, `FunctionalExtensionality.functional_extensionality_dep`
* `C117_matrices`: `ClassicalDedekindReals.sig_forall_dec`, `FunctionalExtensionality.functional_extensionality_dep`
* `C118_nodes`: `ClassicalDedekindReals.sig_forall_dec`, `FunctionalExtensionality.functional_extensionality_dep`
* `C118_edges`: `ClassicalDedekindReals.sig_forall_dec`, `FunctionalExtensionality.functional_extensionality_dep`
* `C118_faces`: `ClassicalDedekindReals.sig_forall_dec`, `FunctionalExtensionality.functional_extensionality_dep`
* `C119_gradients`: `ClassicalDedekindReals.sig_forall_dec`, `FunctionalExtensionality.functional_extensionality_dep`
* `C119_rotation_divergence`: `ClassicalDedekindReals.sig_forall_dec`, `FunctionalExtensionality.functional_extensionality_dep`
* `C120_inner0`: `ClassicalDedekindReals.sig_forall_dec`, `FunctionalExtensionality.functional_extensionality_dep`
* `C120_inner1`: `ClassicalDedekindReals.sig_forall_dec`, `FunctionalExtensionality.functional_extensionality_dep`
* `C120_inner2`: `ClassicalDedekindReals.sig_forall_dec`, `FunctionalExtensionality.functional_extensionality_dep`
* `C120_symmetric`: `ClassicalDedekindReals.sig_forall_dec`, `FunctionalExtensionality.functional_extensionality_dep`
* `C120_positive`: `ClassicalDedekindReals.sig_forall_dec`, `FunctionalExtensionality.functional_extensionality_dep`
* `C120_energies`: `ClassicalDedekindReals.sig_forall_dec`, `FunctionalExtensionality.functional_extensionality_dep`
* `C120_L2`: `ClassicalDedekindReals.sig_forall_dec`, `FunctionalExtensionality.functional_extensionality_dep`
* `C121_values`: `ClassicalDedekindReals.sig_forall_dec`, `FunctionalExtensionality.functional_extensionality_dep`
* `C121_traces`: `ClassicalDedekindReals.sig_forall_dec`, `FunctionalExtensionality.functional_extensionality_dep`
* `C134_trace`: `ClassicalDedekindReals.sig_not_dec`, `ClassicalDedekindReals.sig_forall_dec`, `FunctionalExtensionality.functional_extensionality_dep`
* `C134_flux`: `ClassicalDedekindReals.sig_not_dec`, `ClassicalDedekindReals.sig_forall_dec`, `FunctionalExtensionality.functional_extensionality_dep`
* `C134_scalar`: `ClassicalDedekindReals.sig_not_dec`, `ClassicalDedekindReals.sig_forall_dec`, `FunctionalExtensionality.functional_extensionality_dep`
* `C134_matrix`: `ClassicalDedekindReals.sig_not_dec`, `ClassicalDedekindReals.sig_forall_dec`, `FunctionalExtensionality.functional_extensionality_dep`
* `C134_shared`: `ClassicalDedekindReals.sig_not_dec`, `ClassicalDedekindReals.sig_forall_dec`, `FunctionalExtensionality.functional_extensionality_dep`
* `C135_trace`: `ClassicalDedekindReals.sig_forall_dec`, `FunctionalExtensionality.functional_extensionality_dep`
* `C135_normal`: `ClassicalDedekindReals.sig_not_dec`, `ClassicalDedekindReals.sig_forall_dec`, `FunctionalExtensionality.functional_extensionality_dep`
* `C135_matrix`: `ClassicalDedekindReals.sig_forall_dec`, `FunctionalExtensionality.functional_extensionality_dep`
* `C136_nodes`: `ClassicalDedekindReals.sig_forall_dec`, `FunctionalExtensionality.functional_extensionality_dep`
* `C136_faces`: `ClassicalDedekindReals.sig_not_dec`, `ClassicalDedekindReals.sig_forall_dec`, `FunctionalExtensionality.functional_extensionality_dep`
* `C136_trace`: `ClassicalDedekindReals.sig_forall_dec`, `FunctionalExtensionality.functional_extensionality_dep`
* `C136_normal`: `ClassicalDedekindReals.sig_not_dec`, `ClassicalDedekindReals.sig_forall_dec`, `FunctionalExtensionality.functional_extensionality_dep`
* `C137_nodes`: `ClassicalDedekindReals.sig_not_dec`, `ClassicalDedekindReals.sig_forall_dec`, `FunctionalExtensionality.functional_extensionality_dep`
* `C137_faces`: `ClassicalDedekindReals.sig_not_dec`, `ClassicalDedekindReals.sig_forall_dec`, `FunctionalExtensionality.functional_extensionality_dep`
* `C137_symmetric`: `ClassicalDedekindReals.sig_not_dec`, `ClassicalDedekindReals.sig_forall_dec`, `FunctionalExtensionality.functional_extensionality_dep`
* `C137_positive`: `ClassicalDedekindReals.sig_not_dec`, `ClassicalDedekindReals.sig_forall_dec`, `FunctionalExtensionality.functional_extensionality_dep`
* `C137_round0`: `ClassicalDedekindReals.sig_forall_dec`, `FunctionalExtensionality.functional_extensionality_dep`
* `C137_round0_normal`: `ClassicalDedekindReals.sig_not_dec`, `ClassicalDedekindReals.sig_forall_dec`, `FunctionalExtensionality.functional_extensionality_dep`
* `C137_round2`: `ClassicalDedekindReals.sig_not_dec`, `ClassicalDedekindReals.sig_forall_dec`, `FunctionalExtensionality.functional_extensionality_dep`
* `C137_round2_flux`: `ClassicalDedekindReals.sig_not_dec`, `ClassicalDedekindReals.sig_forall_dec`, `FunctionalExtensionality.functional_extensionality_dep`
* `C110_element_map`: `ClassicalDedekindReals.sig_forall_dec`, `FunctionalExtensionality.functional_extensionality_dep`
* `C110_failure`: `ClassicalDedekindReals.sig_forall_dec`, `FunctionalExtensionality.functional_extensionality_dep`
* `C111_numbering`: `ClassicalDedekindReals.sig_forall_dec`, `FunctionalExtensionality.functional_extensionality_dep`
* `C112_numbering1`: `ClassicalDedekindReals.sig_forall_dec`, `FunctionalExtensionality.functional_extensionality_dep`
* `C113_coboundary`: `ClassicalDedekindReals.sig_forall_dec`, `FunctionalExtensionality.functional_extensionality_dep`
* `C113_conservation`: `ClassicalDedekindReals.sig_forall_dec`, `FunctionalExtensionality.functional_extensionality_dep`
* `C157_area`: `ClassicalDedekindReals.sig_not_dec`, `ClassicalDedekindReals.sig_forall_dec`, `FunctionalExtensionality.functional_extensionality_dep`
* `C157_domain`: `ClassicalDedekindReals.sig_not_dec`, `ClassicalDedekindReals.sig_forall_dec`, `FunctionalExtensionality.functional_extensionality_dep`
* `C157_angles`: `ClassicalDedekindReals.sig_not_dec`, `ClassicalDedekindReals.sig_forall_dec`, `FunctionalExtensionality.functional_extensionality_dep`, `Classical_Prop.classic`
* `C157_no_angles`: `ClassicalDedekindReals.sig_not_dec`, `ClassicalDedekindReals.sig_forall_dec`, `FunctionalExtensionality.functional_extensionality_dep`, `Classical_Prop.classic`
* `C157_quality`: `ClassicalDedekindReals.sig_not_dec`, `ClassicalDedekindReals.sig_forall_dec`, `FunctionalExtensionality.functional_extensionality_dep`, `Classical_Prop.classic`
* `C159_classify`: `ClassicalDedekindReals.sig_forall_dec`, `FunctionalExtensionality.functional_extensionality_dep`
* `C159_jacobian`: `ClassicalDedekindReals.sig_forall_dec`, `FunctionalExtensionality.functional_extensionality_dep`
* `C159_element`: `ClassicalDedekindReals.sig_forall_dec`, `FunctionalExtensionality.functional_extensionality_dep`
* `C159_element_types`: `ClassicalDedekindReals.sig_forall_dec`, `FunctionalExtensionality.functional_extensionality_dep`
* `C159_same_lengths`: `ClassicalDedekindReals.sig_forall_dec`, `FunctionalExtensionality.functional_extensionality_dep`
* `C159_total_refuted`: `ClassicalDedekindReals.sig_forall_dec`, `FunctionalExtensionality.functional_extensionality_dep`
* `C158_parallel`: `ClassicalDedekindReals.sig_not_dec`, `ClassicalDedekindReals.sig_forall_dec`, `FunctionalExtensionality.functional_extensionality_dep`, `Classical_Prop.classic`
* `C158_classify`: `ClassicalDedekindReals.sig_not_dec`, `ClassicalDedekindReals.sig_forall_dec`, `FunctionalExtensionality.functional_extensionality_dep`, `Classical_Prop.classic`
* `C158_convex`: `ClassicalDedekindReals.sig_not_dec`, `ClassicalDedekindReals.sig_forall_dec`, `FunctionalExtensionality.functional_extensionality_dep`, `Classical_Prop.classic`
* `C158_same_data`: `ClassicalDedekindReals.sig_not_dec`, `ClassicalDedekindReals.sig_forall_dec`, `FunctionalExtensionality.functional_extensionality_dep`, `Classical_Prop.classic`
* `C158_orthogonal_refuted`: `ClassicalDedekindReals.sig_not_dec`, `ClassicalDedekindReals.sig_forall_dec`, `FunctionalExtensionality.functional_extensionality_dep`, `Classical_Prop.classic`
* `C158_same_orthogonal_refuted`: `ClassicalDedekindReals.sig_not_dec`, `ClassicalDedekindReals.sig_forall_dec`, `FunctionalExtensionality.functional_extensionality_dep`, `Classical_Prop.classic`
* `C152_zero_forms`: `ClassicalDedekindReals.sig_forall_dec`, `FunctionalExtensionality.functional_extensionality_dep`
* `C152_inner_products`: `ClassicalDedekindReals.sig_forall_dec`, `FunctionalExtensionality.functional_extensionality_dep`
* `C152_kept`: `ClassicalDedekindReals.sig_forall_dec`, `FunctionalExtensionality.functional_extensionality_dep`
* `C153_tensor`: `ClassicalDedekindReals.sig_forall_dec`, `FunctionalExtensionality.functional_extensionality_dep`
* `C153_split`: `ClassicalDedekindReals.sig_forall_dec`, `FunctionalExtensionality.functional_extensionality_dep`
* `C153_split_only`: `ClassicalDedekindReals.sig_forall_dec`, `FunctionalExtensionality.functional_extensionality_dep`
* `C153_symmetric`: `ClassicalDedekindReals.sig_forall_dec`, `FunctionalExtensionality.functional_extensionality_dep`
* `C153_Q_value`: `ClassicalDedekindReals.sig_forall_dec`, `FunctionalExtensionality.functional_extensionality_dep`
* `C153_Q_right`: `ClassicalDedekindReals.sig_forall_dec`, `FunctionalExtensionality.functional_extensionality_dep`
* `C153_never_positive`: `ClassicalDedekindReals.sig_forall_dec`, `FunctionalExtensionality.functional_extensionality_dep`
* `C153_lambda2`: `ClassicalDedekindReals.sig_forall_dec`, `FunctionalExtensionality.functional_extensionality_dep`
* `C153_trace`: `ClassicalDedekindReals.sig_forall_dec`, `FunctionalExtensionality.functional_extensionality_dep`
* `C153_diagonal`: `ClassicalDedekindReals.sig_forall_dec`, `FunctionalExtensionality.functional_extensionality_dep`
* `C153_Q_refuted`: `ClassicalDedekindReals.sig_forall_dec`, `FunctionalExtensionality.functional_extensionality_dep`
* `C153_lambda2_refuted`: `ClassicalDedekindReals.sig_forall_dec`, `FunctionalExtensionality.functional_extensionality_dep`
* `C156_quadratic`: `ClassicalDedekindReals.sig_forall_dec`, `FunctionalExtensionality.functional_extensionality_dep`
* `C156_triangles_quads`: `ClassicalDedekindReals.sig_forall_dec`, `FunctionalExtensionality.functional_extensionality_dep`
* Closed under the global context (no axioms): `C18_assembly`, `C18_regather_refuted`, `C19_vector_assembly`, `C20_clear_global_row`, `C20_set_assembled_entry`, `C20_identify_global_row`, `C20_capped_search_refuted`, `C20_repeated_dof_refuted`, `C21_set_assembled_vector_entry`, `C21_any_order_refuted`, `C22_set_unknown`, `C22_set_unknown_raises`, `C23_block_matrix`, `C23_block_matrix_defined`, `C23_concatenated_vector`, `C07_gathering_accepted_iff`, `C07_gathering_rejected`, `C07_replace_last_value`, `C07_add_sum`, `C08_assemble_distribute`, `C08_add_distribute`, `C09_array_and_csr`, `C09_csc_is_transposed`, `C09_every_format_refuted`, `C52_nodes`, `C52_kronecker`, `C52_polynomial`, `C52_unity`, `C52_interpolates`, `C53_derivative`, `C53_commutes`, `C53_histopolation`, `C64_shared`, `C64_whole`, `C64_round_trip_refuted`, `C64_full`, `C64_set_full`, `C67_round_trip`, `C67_slices`, `C67_none`, `C67_chain_silly`, `C67_chain`, `C67_sequent_refuted`, `C84_regrouped`, `C84_keys`, `C60_edge_types`, `C60_edge_dofs`, `C60_box_edges`, `C83_edges`, `C83_nodes`, `C83_box`, `C83_lost_refuted`, `C14_cache_transparent`, `C14_other_element`, `C15_operators`, `C15_ambiguous_keys_refuted`, `C15_customized_operand_refuted`, `C16_vector_sum_refuted`, `C16_vector_sum_keyed_refuted`, `C16_vector_sum_partial`, `C17_customizations`, `C17_clear_restores`, `C17_vector_customizations`, `C133_last`, `C133_default`, `C133_error`, `C148_combine`, `C148_triangles`, `C148_refused`, `C148_missing`, `C10_silly_local_vectors`, `C10_silly_covers`, `C10_silly_injective`, `C11_sequent_renumbers`, `C11_sequent_any_numbering_refuted`, `C12_chain_find_is_search`, `C12_find_is_search`, `C13_chain_cache_equal_lengths`, `C13_chain_cache_refuted`, `C34_resume`, `C34_varying_dt_refuted`, `C35_shut_down`, `C35_reason_refuted`, `C35_resumed_refuted`, `C36_steps`, `C36_least`, `C36_both`, `C36_sound`, `C36_accepts_refuted`, `C36_least_refuted`, `C30_iterates`, `C30_residual`, `C30_recursion`, `C30_shadow_refuted`, `C31_augmentation`, `C32_schur`, `C68_gmres`, `C68_lgmres`, `C70_rows`, `C70_solutions`, `C24_split_partition`, `C24_transfer`, `C24_mixed_storage_refuted`, `C25_matrix_product`, `C25_matrix_product_defined`, `C26_matrix_vector`, `C26_matrix_full_vector`, `C26_csc_refuted`, `C27_row_claim`, `C27_column_claim_is_csc`, `C27_column_claim_refuted`, `C28_gather_distributed`, `C28_master_part_refuted`, `C28_repeated_index_refuted`, `C154_to_sides`, `C154_from_sides`, `C154_back`, `C154_on_side`, `C154_full`, `C154_full_refuted`, `C154_sides_refuted`, `C154_set_globe`, `C154_get_globe`, `C155_forms`, `C155_once`, `C155_cover`, `C155_side_numbers`, `C155_side_places`, `C155_boundary`, `C155_raises_refuted`, `C155_wrong_refuted`, `C155_ends_refuted`, `C89_cache`, `C105_eliminate`, `C105_evaluate`, `C105_evaluate_twice`, `C105_evaluate_vector`, `C105_evaluate_more`, `C105_repeated_refuted`, `C105_reduce`, `C105_derivative`, `C106_residual`, `C106_jacobian`, `C106_zero_rhs`, `C106_zero_rhs_refuted`, `C107_residual`, `C107_converged`, `C107_linear`, `C107_fixed`, `C107_prescribed_refuted`, `C56_partition`, `C56_automatic`, `C57_numbering`, `C80_mutual`, `C80_boundary`, `C80_corners`, `C80_crack_refuted`, `C58_symmetric`, `C58_where`, `C58_layouts`, `C58_periodic_layout_refuted`, `C79_slave`, `C81_optimized`, `C82_tiled`, `C82_spacing`, `C38_hms`, `C38_dhms`, `C38_dhmsm`, `C38_text`, `C38_float_ms_refuted`, `C39_pieces`, `C39_rejects_refuted`, `C40_first`, `C40_value`, `C40_arrays_refuted`, `C41_accepts`, `C41_result`, `C41_idempotent`, `C41_idempotent_refuted`, `C42_fill`, `C42_default`, `C42_integers_refuted`, `C43_none`, `C43_point`, `C54_fresh`, `C54_stale_refuted`, `C55_refine`, `C55_refine_refuted`, `C71_closest`, `C73_last`, `C73_earlier_refuted`, `C74_rows`, `C75_filename`, `C63_restriction`, `C63_mesh`, `C63_box`, `C63_lowest_refuted`, `C61_box`, `C61_mesh`, `C61_elements`, `C61_hybrid`, `C62_success`, `C62_sound`, `C62_conforming`, `C62_raises_refuted`, `C62_twice_refuted`, `C01_group_cores_partition`, `C01_group_cores_rejects`, `C01_group_cores_agree`, `C02_tree_total`, `C02_tree_send_matched`, `C02_tree_recv_matched`, `C02_tree_reduction`, `C02_tree_terminates`, `C02_tree_reduction_rendezvous`, `C03_chaining_in_rank_order`, `C03_chaining_terminates`, `C03_chaining_total`, `C04_dispatching_exactly_once`, `C04_dispatching_terminates`, `C05_dispatching_any_task_refuted`, `C06_check_same_iff`, `C06_check_same_report`, `C37_crashes`, `C37_complete`, `C37_once`, `C37_order`, `C37_only`, `C37_results`, `C37_slaves`, `C37_torn`, `C37_torn_last`, `C37_torn_refuted`, `C37_header_refuted`, `C37_header_last_refuted`, `C37_names`, `C37_shapes`, `C37_kwargs_refuted`, `C37_used_refuted`, `C37_read_file`, `C37_read_file_refuted`, `C65_round_trip`, `C65_one`, `C65_individuals`, `C65_one_mesh`, `C65_single_refuted`, `C65_shared_refuted`, `C65_warm`, `C65_text_refuted`, `C65_identity_refuted`, `C65_kind_refuted`, `C65_dual_name`, `C65_dual_name_refuted`, `C65_cochain`, `C65_old_mesh`, `C65_old_form`, `C65_file_name`, `C65_file_name_refuted`, `C45_forms3`, `C45_forms2`, `C45_counts`, `C45_cells`, `C46_grad_curl`, `C46_curl_div`, `C47_inner`, `C47_outer`, `C48_3d`, `C48_2d`, `C49_trace`, `C49_selective`, `C49_sides`, `C49_cochain`, `C49_outer2d`, `C50_local_gathering`, `C51_internal`, `C51_lowest_degree_refuted`, `C76_edge_matrices`, `C76_edge_dofs0`, `C76_edge_dofs1`, `C77_connection`, `C78_gauss`, `C78_gauss2d_refuted`, `C29_stop`, `C29_forced`, `C29_large_tol`, `C29_info_zero_refuted`, `C33_newton`, `C33_info_zero`, `C33_forced`, `C69_fixed_solution`, `C69_first_step_refuted`, `C66_requests`, `C66_dofs`, `C66_hybrid`, `C66_faces`, `C66_box`, `C66_corner_refuted`, `C66_names_refuted`, `C66_values`, `C66_rows`, `C66_off_diagonal`, `C66_partners_refuted`, `C66_solution`, `C66_condition`, `C66_constant`, `C66_cache`, `C66_cache_refuted`, `C66_deleted_refuted`, `C141_meshes`, `C141_accepts`, `C141_from_traces`, `C141_hybrid`, `C141_from_elements`, `C141_there_and_back`, `C141_only_single_valued`, `C141_back_and_there`, `C141_changed_refuted`, `C141_rejected_refuted`, `C141_foreign_refuted`, `C141_partial_refuted`, `C141_disagree_refuted`, `C59_trace`, `C59_cores`, `C59_mesh`, `C60_types`, `C60_trace_dofs`, `C60_mesh_dofs`, `C108_local_numbering`, `C108_edges`, `C109_incidence`, `C110_three_cells_refuted`, `C110_duplicate_refuted`, `C112_numbering2`, `C113_exact`, `C156_requests`.
