# Formal model of tdegeus/GooseFEM in Rocq (Coq 8.16.1)

## 1. Approach

The C++ in `/repo/include/GooseFEM` is a header-only library of array programs plus a few small state
machines (`Stitch`, `Vstack`, `StopList`, the matrix/solver pairs with their `m_changed`/`m_factor`
flags, the quadrature objects with their cached gradients).  Each function is a total, computable
Gallina function (`Model_*.v`); every definition cites the lines it models.  The properties are stated
with a separate small vocabulary (`Spec*.v`, no model definitions in it) and proved for all inputs.

Outcomes.  A modelled function returns `res A`:
`Ok a` | `Oob` (access outside an array, unsigned subtraction below zero that is used as an index or
size) | `Uninit` (read of memory that was allocated by `xt::empty` and never written) | `Throw`
(`GOOSEFEM_CHECK`, `GOOSEFEM_WIP_ASSERT`, explicit exceptions).  A theorem that says `f x = Ok y` thus also
says that there is no undefined behaviour and no exception.

## 2. Conventions and simplifications

* `size_t` is `nat`: sizes are unbounded, there is no overflow.  Subtraction below zero is modelled
  (`usub`, or a hypothesis of the theorem excludes it, which the comment at the definition says).
* `double` is the type `R` of the standard library: exact arithmetic, no rounding, no NaN/inf.
  Division by zero is `R`'s total division; theorems that divide have the hypothesis that excludes it.
  Comparisons with a tolerance (`xt::isclose`, `xt::allclose`) are an arbitrary boolean function `close`
  on which the theorem puts explicit hypotheses.
* Arrays of rank 1-3 are lists (of lists); in the quadrature classes an array is a total function of its
  index list and the loops run over the declared extents.
* A loop that fills an array with a running index is a list of rows that must have the allocated
  length (`fill_rows`); a loop with computed indices is a sequence of writes (`loop_fill`,
  `write_all`), bounds-checked, and every cell must have been written.
* OpenMP loops: if two iterations can write the same cell, the order of the iterations is a parameter
  (any permutation) and the theorems hold for all of them, or show that the result depends on it.
  Data races inside one floating-point addition are not modelled (the code has none that we found: each
  accumulation is either in one thread or `omp` is absent).
* Eigen's sparse matrices are a size and an entry function built from triplets with duplicates summed
  (`setFromTriplets`); the factorisation is a parameter of the model and the theorems hold for every
  function that solves the systems it is given.
* `GOOSEFEM_ASSERT` is compiled out by default, so what is asserted is a hypothesis of the theorem, never
  a guarantee; `GOOSEFEM_WIP_ASSERT`/`GOOSEFEM_CHECK` are always active and modelled.
* CRTP base classes are resolved statically: `nodesLeftEdge()` of a mesh is modelled by its `_impl`; the
  tables in `Model_Aliases.v` model the forwarding methods themselves.
* Loops whose bound is not a syntactic recursion (FineLayer's coarsening loop) run on fuel; the theorems show
  that the fuel suffices (`Some`).

## 3. Layout of `rocq/theories`

`Base`, `Sums`: lists, arrays, finite sums.  `Spec*`: the vocabulary of the statements.  `Model_*`: the
model.  `Proof_*`: lemmas.  `Prop_*`: the theorems, each closed by `exact`, followed by `Print
Assumptions` and an `Example` on concrete data that meets the hypotheses.  Suffixes: `_partial` = weaker than
the property (the comment says what is missing); `_refuted` = the property as stated is false of the
code, with a concrete witness.  `seeded/LOG.jsonl`: wrong programs that were tried against the theorems.


## 4. Per property: what is modelled, how it is proved

The English statements are in `properties.jsonl`, the theorem names in `MANIFEST.json`; all theorems are in the `Prop_*.v` file named here.

| id | property | modelled (definitions cite file:lines) | proof | theorems in | status |
|----|----------|----------|-------|----|----|
| C01 | renumber is compact and order preserving | Model_Numbering (renumber, Renumber; the lookup table holds uninitialised cells) | sorted-unique list by induction; table-write lemmas; no read of an uninitialised cell | Prop_Numbering | proved |
| C02 | Renumber.index is consistent with apply and renumbering is idempotent | Model_Numbering | as C01; idempotence from uniqueness of the compact numbering | Prop_Numbering | proved |
| C03 | Reorder numbers items by their position in the concatenated lists | Model_Numbering (Reorder) | fold over the concatenation, last-write lemma | Prop_Numbering | proved |
| C04 | Sequential DOFs are a bijection | Model_Numbering (dofs) | div/mod | Prop_Numbering | proved |
| C05 | Periodic DOFs tie exactly the listed pairs | Model_Numbering (RegularBase::dofsPeriodic) | representative function of the ties, then C01 | Prop_Numbering | proved |
| C06 | Quad4.Regular: coordinates and connectivity | Model_Regular2d | row/column index arithmetic; rows characterised by div/mod | Prop_Regular2d | proved |
| C07 | Quad4.Regular / Tri3.Regular: boundary node sets | Model_Regular2d | each list = {nodes on a side}, via coordinates only (Spec2d.boundary_sets) | Prop_Regular2d | proved |
| C08 | Regular 2-d meshes: periodic node pairs | Model_Regular2d (nodesPeriodic) | congruence of coordinates modulo the size; every right/top node tied once | Prop_Regular2d | proved |
| C09 | Quad4.Regular: elementgrid and tiling | Model_Regular2d (elementgrid) | index arithmetic; tiling: floor of the coordinates (Proof_RegularTiling) | Prop_Regular2d, Prop_RegularTiling | proved |
| C10 | Tri3.Regular: coordinates and connectivity | Model_Regular2d (Tri3) | as C06, and tiling by both triangles of a cell | Prop_Regular2d, Prop_RegularTiling | proved |
| C11 | Tri3 orientation | Model_Regular2d (getOrientation, setOrientation) | sign of the cross product, for every triangle mesh | Prop_Regular2d | proved |
| C12 | Hex8.Regular: coordinates and connectivity | Model_Hex8Regular | as C06 in three dimensions; tiling by floors | Prop_Hex8Regular | proved |
| C13 | Hex8.Regular: boundary node sets | Model_Hex8Regular | faces, edges, open faces/edges, corners as sets of coordinates | Prop_Hex8Regular | proved |
| C14 | Regular 3-d mesh: periodic node pairs | Model_Hex8Regular, RegularBase3d::nodesPeriodic | as C08 | Prop_Hex8Regular | proved |
| C15 | Periodic DOFs of the regular meshes | dofsPeriodic of the regular meshes | generic lemma periodic_dofs_generic from C05 + C08/C14 | Prop_Hex8Regular, Prop_Regular2d | proved |
| C16 | Quad4.FineLayer: layer structure | Model_FineLayer (init: the loops on fuel, fuel proved sufficient) | loop invariant of the coarsening loop | Prop_FineLayer | proved |
| C17 | Quad4.FineLayer: sizes and connectivity range | Model_FineLayer (conn) | layer induction; every index in range, every node used | Prop_FineLayer | proved |
| C18 | Quad4.FineLayer: geometry | Model_FineLayer (coor, conn) | layer induction; point location for the tiling; positive Jacobian of every element | Prop_FineLayer | proved |
| C19 | Quad4.FineLayer: boundary node sets | Model_FineLayer | node sets through coordinates | Prop_FineLayer | proved |
| C20 | Quad4.FineLayer: periodicity | Model_FineLayer (nodesPeriodic, dofsPeriodic) | as C08, C15 | Prop_FineLayer | proved |
| C21 | Quad4.FineLayer: elements per layer | Model_FineLayer (elementsMiddleLayer, elementsLayer) | layer arithmetic | Prop_FineLayer | proved |
| C22 | Quad4.FineLayer: roll | Model_FineLayer (roll) | permutation induced by a shift of the coordinates | Prop_FineLayer | proved |
| C23 | Quad4.FineLayer: elementgrid_ravel | Model_FineLayer (elementgrid_ravel) | layer/window induction | Prop_FineLayerGrid | proved |
| C24 | Quad4.FineLayer: reconstruction from coor/conn | Model_FineLayerMapping | reconstruction of nelx, nely, h, elements of the middle layer from coor/conn; any comparison `close` that accepts equals | Prop_FineLayerMapping | partial |
| C25 | Hex8.FineLayer: layer structure, sizes and connectivity range | Model_Hex8FineLayer | as C16, C17 with x- and z-refinement | Prop_Hex8FineLayer | proved |
| C26 | Hex8.FineLayer: geometry | Model_Hex8FineLayer (coor, conn) | layer case analysis; point location in a 3-d trilinear element (Proof_Tiling3) | Prop_Hex8FineLayer | proved |
| C27 | Hex8.FineLayer: boundary node sets | Model_Hex8FineLayer (30 node sets) | as C19 | Prop_Hex8FineLayer | partial |
| C28 | RefineRegular: the map is a partition | Model_Map (RefineRegular) | block index arithmetic; finite sums | Prop_Refine | proved |
| C29 | RefineRegular: the fine mesh covers the coarse mesh | Model_Map (RefineRegular) | witness and iff | Prop_Refine | partial |
| C30 | FineLayer2Regular: overlap fractions | Model_Map (FineLayer2Regular) | overlap area of trapezia with cells, as Riemann integrals (Coquelicot's RInt in the specification) | Prop_F2R | proved |
| C31 | overlapping is complete and sound | Model_Stitch (overlapping) | list of all close pairs, for any comparison | Prop_Stitch | proved |
| C32 | ManualStitch | Model_Stitch (ManualStitch) | node map built by the constructor: injective except for the overlap | Prop_Stitch | proved |
| C33 | Stitch: every history of push_back | Model_Stitch (Stitch as a state machine) | invariant over every history of push_back | Prop_Stitch | proved |
| C34 | Vstack: every history of push_back | Model_Stitch (Vstack) | invariant over every history of push_back | Prop_Stitch | proved |
| C35 | elem2node and coordination | Model_Topology | induction over the connectivity | Prop_Topology | proved |
| C36 | elem2node with periodic dofs | Model_Topology (elem2node with dofs) | nodaltyings + C35 | Prop_Topology | proved |
| C37 | node2dof and nodaltyings | Model_Topology (node2dof, nodaltyings) | induction | Prop_Topology | proved |
| C38 | elemmap2nodemap | Model_Topology | induction | Prop_Topology | proved |
| C39 | centers, edgesize, nodal_mass, center_of_gravity | Model_MeshGeometry | finite sums; nodal_mass through MatrixDiagonal and the Nodal quadrature | Prop_MeshGeometry | proved |
| C40 | Vector: conversions are mutually inverse, for every thread schedule | Model_Vector; schedules are permutations of the iterations | unique-writer lemmas | Prop_Vector | proved |
| C41 | Vector: assembly | Model_Vector (assembleDofs, assembleNode) | sums over occurrences | Prop_Vector | proved |
| C42 | VectorPartitioned: partition and recombination | Model_VectorPartitioned | partition of the dofs; scatter/gather | Prop_Vector | proved |
| C43 | Tyings::Control appends free control nodes | Model_Tyings (Control) | arithmetic | Prop_Tyings | proved |
| C44 | Tyings::Periodic encodes the affine periodicity constraint | Model_Tyings (Periodic: Cdu, Cdp, Cdi) | triplet sums | Prop_Tyings | proved |
| C45 | VectorPartitionedTyings | Model_Tyings (VectorPartitionedTyings) | scatter/gather; uninitialised vector explicit | Prop_Tyings | proved |
| C46 | Matrix: assemble, todense, dot | Model_Matrix, Model_Sparse | triplet sums | Prop_Matrix | proved |
| C47 | Matrix: set/add histories | Model_Matrix (set, add, assemble histories) | induction over histories | Prop_Matrix | proved |
| C48 | Solver factorization cache | Model_Matrix (MatrixSolver with m_changed/m_factor) | invariant over histories of one matrix and one solver; the linear solver is any correct one | Prop_Matrix | proved |
| C49 | MatrixPartitioned equals Matrix | Model_MatrixPartitioned | block sums | Prop_MatrixPartitioned | proved |
| C50 | MatrixPartitionedSolver | Model_MatrixPartitioned (Solver) | block elimination; any correct linear solver | Prop_MatrixPartitioned | proved |
| C51 | MatrixPartitionedTyingsSolver: nodevec solve | Model_MatrixTyings (Solver, nodevec) | condensed system, C44 | Prop_MatrixTyings | proved |
| C52 | MatrixPartitionedTyingsSolver: dofval and nodevec variants agree | Model_MatrixTyings (dofval, solve_u) | exact condition and refutations | Prop_MatrixTyings | partial |
| C53 | MatrixDiagonal | Model_MatrixDiagonal | sums; cache invariant | Prop_MatrixDiagonal | proved |
| C54 | MatrixDiagonalPartitioned | Model_MatrixDiagonal (Partitioned) | sums; uninitialised memory explicit | Prop_MatrixDiagonal | partial |
| C55 | Quad4 shape functions | Model_Element (Quad4 quadrature points, weights, N, dNdxi) | ring identities; exactness of Gauss for bi-cubics vs integrals | Prop_ElementQuad4 | proved |
| C56 | Quad4 gradients are exact for affine fields | Model_Element (gradN_vector etc.) | inverse Jacobian; field | Prop_ElementQuad4 | proved |
| C57 | Integration volumes sum to the element area | Model_Element (compute_dN) | ring; integral of the Jacobian | Prop_ElementQuad4 | partial |
| C58 | Mass matrix | Model_Element (int_N_scalar_NT_dV) | finite sums | Prop_ElementQuad4 | proved |
| C59 | Internal force: virtual work | Model_Element (int_gradN_dot_tensor2_dV) | finite sums; virtual work | Prop_ElementQuad4 | proved |
| C60 | Stiffness | Model_Element (int_gradN_dot_tensor4_dot_gradNT_dV) | finite sums | Prop_ElementQuad4 | proved |
| C61 | Quad4Planar | Model_Element (QuadraturePlanar) | reduction to C56-C60 | Prop_ElementPlanar | proved |
| C62 | Quad4Axisymmetric | Model_Element (QuadratureAxisymmetric) | B-matrix; hoop strain u_r/r; volumes 2 pi r | Prop_BodyForce, Prop_ElementPlanar | proved |
| C63 | Hex8 shape functions | Model_Element (Hex8) | as C55 | Prop_ElementHex8 | proved |
| C64 | Hex8 gradients are exact for affine fields | Model_Element (Hex8 gradients) | witness and guarded theorem | Prop_ElementHex8 | partial |
| C65 | asElementVector / assembleNodeVector | Model_Vector (asElementVector, assembleNodeVector) | sums over occurrences | Prop_Vector | proved |
| C66 | isSequential | Model_Misc (isSequential) | witness; exact result | Prop_Misc | partial |
| C67 | isDiagonal | Model_Misc (isDiagonal) | case analysis | Prop_Misc | proved |
| C68 | StopList: every history | Model_Misc (StopList as a state machine) | sliding window over every history | Prop_Misc | partial |
| C69 | AsTensor / as3d | Model_Misc (AsTensor, as3d) | index arithmetic | Prop_Misc | proved |
| C70 | defaultElementType | Model_Misc (defaultElementType) | case analysis | Prop_Misc | proved |
| C71 | is_unique | Model_Misc (is_unique) | sorted list | Prop_Misc | proved |
| C72 | version string | Model_Misc (version strings) | string replacement | Prop_Misc | proved |
| C73 | update_x: every history of a quadrature object | Model_Element (update_x) | the cached N, dNx, vol depend on the last x only, for every history and schedule | Prop_ElementHex8, Prop_ElementPlanar | proved |
| C74 | Hex8: volumes and weak forms | Model_Element (Hex8 weak forms) | finite sums | Prop_BodyForce, Prop_ElementHex8 | proved |
| C75 | elemmap2nodemap with an element type, and nodal fields on rolled meshes | Model_MeshGeometry (elemmap2nodemap) | first-occurrence lemma | Prop_MeshGeometry, Prop_RollNodes | proved |
| C76 | Quad4.FineLayer: elementgrid_leftright | Model_FineLayer (elementgrid_leftright) | rolled window; witnesses | Prop_FineLayerAround | partial |
| C77 | Quad4.FineLayer: elementgrid_around_ravel | Model_FineLayer (elementgrid_around_ravel) | exact selected set; witnesses | Prop_FineLayerAround | partial |
| C78 | Hex8.FineLayer: periodicity | Model_Hex8FineLayer (nodesPeriodic, dofsPeriodic) | as C14, C15; witness | Prop_Hex8FineLayer | partial |
| C79 | Accessors are named after the nodes they return | Model_Aliases (one table per family of methods, with the line of each method) | case analysis on the words + C07, C13, C19, C27 | Prop_Aliases | proved |
| C80 | Assembled stiffness = stiffness of the assembled internal force | Model_Pipeline.v composes the models of Vector, Element and Matrix to the program of docs/examples; the four element classes in one record | each class satisfies four equations (Proof_PipelineElem.v): the gradient is linear with coefficients B, the symmetric gradient is its symmetric part, virtual work, and the stiffness acts as the force of C : grad; the assembled statements follow with the adjointness of gather and assembly | Prop_Pipeline | proved |
| C81 | The assembled tangent is the derivative of the internal force | as C80, with an arbitrary material law | limits of finite sums (derivable_pt_lim of the standard library), linearity of the strain, then C80 | Prop_Pipeline | proved |
| C82 | The statics program reaches equilibrium | Model_Pipeline.statics: the program line by line | C50 (the solver) for the free DOFs, C80 for the force of the solution, C42 for copy_p | Prop_Pipeline | proved |
| C83 | Newton iterations | Model_Pipeline.newton, iterated with foldM | induction over the iterations; the history of the matrix and solver is carried as a list of operations, so that C50 applies to every iteration | Prop_Pipeline | proved |
| C84 | Virtual work and balance of the assembled internal force | as C80 | adjointness of gather and assembly; partition of unity; the gradient of a rotation field (C56, C61) | Prop_Pipeline | proved |
| C85 | Explicit dynamics: momentum and reversibility | Model_Pipeline.verlet_step: one increment with its three solves | the equations of one increment, then induction over the increments; balance from C84 | Prop_Pipeline | proved |
| C86 | Patch test | as C80/C82; Spec_Patch.v defines the elements around a node on the connectivity only | the integral of the gradient of a shape function depends on the two neighbouring nodes only (the cofactors are linear in the local coordinates); the sum over the elements that close around the node telescopes; the solution of the program is the affine field by uniqueness (C87) | Prop_Patch | proved |
| C87 | Zero-energy displacements and uniqueness | as C82 | the three strain components times the Jacobian are affine in the local coordinates, so they vanish identically; then the coefficients are parallel to those of the geometry. Uniqueness: the difference of two solutions has no energy. Held bodies: induction over the definition of 'held' | Prop_Patch | proved |
| C88 | A periodic cell driven by control nodes stays periodic and ends in equilibrium | Model_PeriodicProgram.v: the set-up (periodic_setup), one iteration (newton_tyings) and the convergence forces (periodic_forces), composed of the models of Control, Periodic, VectorPartitionedTyings, MatrixPartitionedTyings and the element classes. Specification in terms of nodes in Spec_Periodic.v. | all DOF values u = T u_i with T from C44; invariants of one iteration (tied, prescribed values, matrix and solver consistent) by the solve theorem of C51, then induction over the iterations; equilibrium from the linearity of the internal force (C80) and the adjointness of T; the meshes by C08, C14, C20 | Prop_Periodic, Prop_PeriodicMesh | proved |
| C89 | Forces on the control nodes are the stress integrated over the periodic cell (Hill-Mandel) | Model_PeriodicProgram.v (as C88); integrals and the coordinates of the element object in Spec_Macro.v. | virtual work (C84 style) of the force on affine displacements with free origin and gradient, whose gradient is exact (C56, C61, C64); equality for all of them gives the components; C89_run from C88_newton by the unit virtual displacements | Prop_Macro | proved |
| C90 | The systems handed to the solver are symmetric positive definite, and solvable by the default kind of solver | Model_Ldlt.v: elimination without pivoting as an instance of the solver parameter (Eigen's solver is outside the code); everything else as C82, C88; spd, linked, no_periodic_mechanism in Spec_Spd.v. | x^T K x is the energy (C80); congruence T^T K T; Schur complements of spd matrices are spd (induction over the size); zero energy gives a rigid motion of each element (C87), equal in linked elements | Prop_Spd | proved |
| C91 | The planar meshes are conforming and in one piece | no new model: conn() and the boundary sets of the models of C06-C24; sides, outline, conforming, joined in Spec_Conform.v (standard library only). | tiling of the rectangle by convex counter-clockwise elements (C20, RegularTiling) implies that a side off the boundary has the opposite side of another element (a point just beyond it is in an element); counting via the boundary sets; connectedness by a weighted sum over sides (closed, so a component has no outline) | Prop_Conform | proved |
| C92 | Discrete divergence theorem and the mean gradient of a periodic cell | no new model; divergence vocabulary in Spec_Divergence.v. | the element integral of a shape function gradient is the half sum of normals of the adjacent sides (exact for centred rules); odd functions of sides cancel on a conforming mesh; opposite sides pair up by the periodic ties | Prop_Divergence | proved |
| C93 | The documented programs on every Quad4::Regular and Quad4::FineLayer mesh | no new model; quad_mesh and mesh_body in Spec_QuadMesh.v. | C88-C90 with hypotheses discharged: jacobian positive from convexity, linked and covered from C91, no mechanism from zero-energy = rigid (C87), patch test from C86 and C91_closed | Prop_QuadMesh | proved |
| C94 | With assertions enabled, no array can make a Vector access memory out of bounds | Model_Checked.v: the dispatch by rank and the assertions (on or off) around the conversions of Model_Vector.v; arrays with an arbitrary shape; in-place output of a wrong shape without assertions counts as out of bounds. | case analysis on the rank; totality of the conversions on the right shapes (C40, C41), for any order of the iterations and any entries | Prop_Checked | proved |
| C95 | With assertions enabled, no array can make a VectorPartitioned access memory out of bounds | Model_Checked.v: constructor and methods of VectorPartitioned with assertions around Model_VectorPartitioned.v. | as C94; partition facts of C42 | Prop_Checked | proved |
| C96 | Energy in explicit dynamics | Model_Verlet.v: the increments of both programs, sqdot, the two energies that are stored, the loop that stores them (Elastic-Verlet/main.cpp:10-19, 109-147) | equality of the programs by unfolding; one increment preserves the modified energy (symmetric bilinear form of the stiffness, virtual work), induction over increments; positivity of the form at u + s a gives the bound | Prop_Verlet | proved |
| C97 | The documented dynamics programs on every regular mesh | Model_Verlet.dynamics_main: the whole program, main.cpp:30-147; affine_start (lines 87-97) | eigenvalue bound of the square's gradient (sum of squares identity at the Gauss points), nodal mass >= rho0 h^2/4, then C96; Epot(0) by exactness of the gradient of affine fields | Prop_VerletMesh | proved |
| C98 | With assertions enabled, no call can make a Matrix or its solver access memory out of bounds | Model_CheckedMatrix.v: dispatch by rank and assertions around Model_Matrix.v; a state of matrix and solver, run through a list of calls whose exceptions are caught. | an invariant on the state (shape of the stored matrix, valid numbers in it) kept by every call; totality of every method on the documented shapes under the invariant | Prop_CheckedMatrix | proved |
| C99 | With assertions enabled, no call can make a MatrixPartitioned or its solver access memory out of bounds; DOF numbers with a hole | Model_CheckedMatrix.v: the same around Model_MatrixPartitioned.v. | as C98; the uninitialised read by following the renumbering list | Prop_CheckedMatrix | proved |
| C100 | The quadrature classes in memory: no access out of bounds, row by row the right entries | Model_ElementMemory.v: every array a block of numbers with a shape, every access an address (xtensor strides, views on raw pointers), out of bounds a distinct outcome; all loops of the four classes. | simulation: each loop on memory against the loop of Model_Element.v, entry by entry; the row-major place is injective on indices. | Prop_ElementMemory | proved |
| C101 | Constructors and update_x of the quadrature classes check what they read | Model_ElementMemory.v: constructors with their assertions where the code has them. | as C100; the refutation by a computed witness (three weights, two points). | Prop_ElementMemory | partial |
| C102 | A strip that is periodic in one direction, held at the bottom and sheared at the top | Model_PartialPeriodic.v: the example program line by line on top of the models of the classes. | ties of the open edges as an instance of the general tie lemma (C15); C82/C90 with no mechanism from C93_held; virtual work (C84) with the test displacement (a + g y) e_j gives the forces; divergence theorem C92 for the uniform case. | Prop_PartialPeriodic | proved |
| C103 | Solving for the unknown DOFs by hand | Model_ManualPartition.v: the example program line by line, memory of np.empty a parameter. | statics unfolded; AsDofs_p of a nodal displacement with these values is u_p, AsNode of the recombined DOFs is the nodal result; C82. | Prop_ManualPartition | proved |
| C104 | The documented programs in three dimensions | no new model; boxes, rigid motions, restrained and hex_mesh in Spec_HexMesh.v. | a box has a diagonal Jacobian, so that no energy at eight points means a rigid motion (unisolvence of the trilinear functions); neighbours share a face, so that the motion is one; the gradient is summed by telescoping over the grid to the faces (divergence theorem); patch test: uniform stress does no work on a displacement that is zero on the faces; then C82, C88-C90. | Prop_HexMesh | proved |
| C105 | Moving the nodes of an element object: volumes, gradients and forces at large deformations | no new model (update_x and the constructors of Model_Element.v); deformed, defgrad, nominal in Spec_Deform.v. | the Jacobian of x + u is F times that of x (interpolation is linear in the nodes), so the volume is det(F) and the gradients are related by the chain rule; forces and power by expanding F . P = det(F) sigma (ring identities). | Prop_Deform | proved |
| C106 | A periodic cell at large deformations | Model_FiniteStrain.v: the loop of the example line by line on top of the set-up of C88; the material is any function, the linear solver and the schedules are parameters. | induction over the iterations with the invariant of C88 (matrix, factorisation, ties) plus "the element object has coordinates coor + disp"; the macroscopic stress from C105 (forces on the reference geometry) and C89. | Prop_FiniteStrain | proved |
| C107 | The finite-strain program gives the material the deformation gradient | Model_FiniteStrain.v: material_F, the I + symGradN of the program. | it is the deformation gradient where the displacement gradient is symmetric (C107_partial); a square that rotates over 90 degrees refutes the claim (C107_volume_refuted). | Prop_FiniteStrain | partial |
| C108 | The loops of the periodic programs end in equilibrium or with the exception | Model_NewtonLoop.v: the loops over increments and iterations, the check for convergence with the relative residual, the exception; the material is a record of arbitrary functions, the geometry a parameter with the two instances of the two programs. | invariant of the state (periodic displacement, matrix and solver consistent, element object at the current position) kept by evaluate/check/advance for any sized solver; induction on iterations and increments; the residual in the reduced forces bounds the virtual work of the imbalance (C108_small, C108_finite); for a linear material the second iteration has residual zero (C108_linear). Prop_NewtonLoopEx.v: any regular mesh with the LDL^T solver, and one element with any material. C108_raise: induction on the iterations; C108_raised from C108_small. | Prop_NewtonLoop, Prop_NewtonRaise | proved |
| C109 | The diagonal matrices, built with assertions, take exactly the documented arguments | Model_CheckedDiagonal.v: the constructors and every public call with arrays of any rank and shape, a flag for the build with assertions, isDiagonal evaluated only in that build, uninitialised storage explicit; programs that catch exceptions. | An invariant (the matrix is new, or has a value) is kept by every call; case analysis on the call and on whether its arrays fit; the arithmetic is that of C53 and C54. | Prop_CheckedDiagonal | proved |
| C110 | Queries on stitched meshes: what is answered, what throws, and what goes wrong silently without assertions | Model_StitchChecked.v: push_back of Stitch and Vstack and all queries of Stitch and ManualStitch, with arrays of any rank and shape, with a flag for the build with assertions. | From the invariant of every history (C33, C34): each query is decided by the sizes of the meshes; case analysis on the query; the silent cases by the offsets of consecutive meshes. | Prop_StitchChecked | proved |
| C111 | The partition of the DOFs is reported the same by tyings, vector and matrix, in C++ and in Python | Model_PartitionReport.v: the eight getters nnu, nnp, nni, nnd, iiu, iip, iii, iid of Tyings::Periodic, VectorPartitionedTyings and MatrixPartitionedTyings and the Python properties bound to them. | From the renumbering of C44 and the sizes of Cdu and Cdp: the ranges are the partition; the wrong bindings compared range by range, with a witness. | Prop_PartitionReport | partial |
| C112 | Periodic tyings and vectors with tyings: invalid input throws when the library is compiled with its assertions | Model_CheckedTyings.v: the constructors of Tyings::Periodic and VectorPartitionedTyings, copy_p, asDofs_i and AsDofs_i, with arrays of any shape, with every assertion and a flag for the build. | Each assertion is shown equivalent to a clause of a specification of arrays that belong together (Spec_CheckedTyings.v); the accepted objects are those of C44 if no tie depends on a tie; Cdi is out of bounds otherwise. | Prop_CheckedTyings | partial |
| C113 | Matrices with tyings and their solver: invalid arguments throw when the library is compiled with its assertions | Model_CheckedMatrixTyings.v: the constructor of MatrixPartitionedTyings and every call to it and its solver, with arrays of any rank and shape, every assertion and a flag for the build. | The calls are classified by shape (Spec_CheckedMatrixTyings.v); an invariant keeps the sizes, and a stronger one (as for C51) the exact matrix and a fresh factorization, through programs in which the calls that throw leave no trace. | Prop_CheckedMatrixTyings | partial |
| C114 | Functions on meshes: invalid arguments throw when the library is compiled with its assertions | Model_CheckedMesh.v: the functions as they are called, with arrays of any rank and shape, every assertion (including std::equal on lists of different lengths) and a flag for the build. | Correct calls are characterised (Spec_CheckedMesh.v) and reduced to C08, C36-C39; for each function every call is classified: value, exception or access out of bounds. The assertion in nodaltyings is shown to accept exactly the ties that agree, because two lists that are prefixes of one list share its head. | Prop_CheckedMesh | partial |
| C115 | Meshes, selections of elements and mappings: invalid arguments throw when the library is compiled with its assertions | Model_CheckedMaps.v: the constructors, elementsLayer, elementgrid_ravel, the four data mappings and as3d as they are called: any numbers, lists of bounds, arrays of any rank and shape, every assertion, and a flag for the build. | Correct calls are reduced to C16, C23, C28, C30 and C69 through a bijection between the entries of an array of rank r and rows of flattened entries (Spec_CheckedMaps.v: per_element, index_of); every other call is shown to throw. | Prop_CheckedMaps | partial |
| C116 | Bodies of revolution: volume, zero-energy displacements, uniqueness and the patch test | No new code: Model_Element.v (QuadratureAxisymmetric, the rules of Quad4), Model_Pipeline.v (the statics program), the meshes of C93. Vocabulary in Spec_AxisymBody.v. | Zero strain gives an affine-bilinear interpolation that vanishes on points that are on no curve a + b xi + c eta + d xi eta = 0. The element forces and volumes are polynomials of degree two in each coordinate, so that the rule integrates them exactly: differences of a function of the next and the previous corner, which cancel around a node (C91). Then C82, C87 and C90 as for planar bodies. | Prop_AxisymBody, Prop_AxisymCylinder | partial |
| C117 | Checked build: conversions, tensors of scalars, control nodes, nodal masses and FineLayer(coor, conn) | Model_CheckedMore.v: asElementVector, assembleNodeVector, asTensor/AsTensor (Allocate.h and by quadrature), Tyings::Control, nodal_mass, center_of_gravity and FineLayer(coor, conn) as they are called: arrays of any rank and shape, every assertion on the way, and a flag for the build. | Correct calls are reduced to C39, C41, C43, C24 and C69; every other call is shown to throw, and the out-of-bounds search of FineLayer(coor, conn) is characterised exactly. | Prop_CheckedMore | partial |
| C118 | The meshes of hexahedra Hex8::Regular are conforming and in one piece | No new code: Model_Hex8Regular.v (conn(), boundary sets). Vocabulary in Spec_ConformHex.v. | Coordinates of nodes and elements in the grid are injective; the element across a side is the neighbour in the grid; one path along the three directions joins two elements. | Prop_ConformHex | proved |
| C119 | Volume and mass of the bodies of hexahedra | No new code: Model_Hex8FineLayer.v, Model_Hex8Regular.v and Model_Element.v (Hex8). | The Jacobian of an element of a refined layer is that of its two-dimensional template times the sizes; the rules average it to the area of the template; the templates fill a block, the blocks a layer, the layers the domain. | Prop_HexFineVolume | proved |
| C120 | Gradients on Mesh::Hex8::FineLayer | No new code: Model_Hex8FineLayer.v and Model_Element.v (Hex8). | Refuted by the Jacobian of the first element of the mesh of 3 x 9 x 2; on layers without refinement the templates are squares, so the elements are boxes and C64_box_partial applies. | Prop_HexFineGrad | partial |
| C121 | The diagonal mass matrix on meshes of hexahedra and quadrilaterals | No new code: Model_Element.v (Hex8), Model_MatrixDiagonal.v, Model_Hex8FineLayer.v and Model_Hex8Regular.v. | The shape functions are one at their own node and zero at the others, so an entry on the diagonal is density times dV of one point; C119 gives the volumes, C53 the history of a MatrixDiagonal. | Prop_HexMass | proved |
| C122 | Explicit dynamics on meshes of hexahedra: the momentum is conserved | No new code: Model_Pipeline.v (verlet_step), Model_Element.v (Hex8), Model_MatrixDiagonal.v, Model_Hex8FineLayer.v and Model_Hex8Regular.v. | C85_momentum with the mass matrix of C121 and the unit vector of one direction; a sum over the DOFs n * 3 + i is one over the nodes. | Prop_HexDynamics | proved |
| C123 | The moments of the internal forces are the integral of the stress | No new code: Model_Element.v, Model_Vector.v and the meshes. | Virtual work (C84) on an affine displacement, whose gradient is exact (C56, C61, C64_partial): choose a displacement a, or G with one entry. | Prop_Moments | proved |
| C124 | Explicit dynamics: the moment of momentum | No new code: Model_Pipeline.v (verlet_step) and the models it uses. | Induction over the steps: by C123 the internal forces of a symmetric stress have no moment, so mass times acceleration has that of the external force after every step. | Prop_AngularMomentum | proved |
| C125 | Loads and reactions are in equilibrium | No new code: Model_Pipeline.v (statics) and the models it uses. | C82: the external force that is returned equals the internal force in all nodes; C123 gives the moments of the latter. | Prop_Reactions | proved |

### Partial claims

* **C24** False as stated for meshes of a single layer of at least two elements: the search for the ends of the middle layer reads outside conn (C24_one_layer_refuted, for all such meshes). Proved for every other mesh with the default nfine; nfine different from the default is not recovered (C24_nfine).
* **C27** Faces, edges, open edges, corners, and the open faces bottom/top are proved. False for the open faces front/back/left/right when the outermost layers are refinement layers: the code skips these layers and so the nodes inside them (refuted with a witness). Exact content proved for all meshes (C27_open_faces_partial), the full claim where the outermost layers are not refined in that direction.
* **C29** False of the code: RefineRegular builds the fine mesh with the element size of the coarse mesh, so it covers nx*Lx x ny*Ly. The full claim is refuted with a witness, holds iff nx = ny = 1, and the scaled tiling is proved.
* **C52** False as stated: the dofval variant ignores b_d and reads m_iip for iid, Solve_u ignores b_d. Proved: the exact condition under which the variants agree, the out-of-bounds read when nnd > nnp, and refutations with witnesses.
* **C54** Equality with MatrixDiagonal, solve and reaction are proved for every history. False as stated: Solve(b) leaves exactly the prescribed entries uninitialised, and Reaction_p sizes its result with an uninitialised member of the base class (both refuted with witnesses; exact behaviour proved in the _partial theorems).
* **C57** Proved for Gauss and Nodal (and equal to the integral of the Jacobian). False for MidPoint: its weight is 1 instead of 4, the volumes sum to a quarter of the area (refuted with a witness, exact value proved).
* **C64** False as stated: Element.h:1220 uses dNxi(m,i) for dNxi(m,j); refuted with a sheared cube. Proved where the Jacobian matrix is diagonal, in particular for axis-aligned boxes.
* **C66** isSequential is true for every argument: the statement 'true only for sequential dofs' is refuted with a witness; the remaining claims are proved.
* **C68** The contents of the list are proved for every history. The two criteria are as stated for residuals that are not NaN; with NaN they are refuted (a NaN residual is below every tolerance, and hides an increase), and exactly what they decide is proved.
* **C76** False as stated: the selection is cut off where the window leaves the mesh rolled to its middle block, and a mesh of a single layer is read out of bounds (both refuted with witnesses). The exact result is proved for all meshes with more than one layer; it is the claimed one whenever left <= mid and mid + right < nelx.
* **C77** False as stated: the right side of the box can miss one column of fine elements (refuted with a witness), and the box is cut off by the sides of the rolled mesh. The exact set of selected elements is proved for all meshes with more than one layer.
* **C78** False as stated when the outermost layers are refinement layers: nodes inside them on the back/right face are not tied (refuted with a witness). The full claim is proved where they are not, and the exact behaviour in general (C78_periodic_partial).
* **C101** The last sentence is false of Quad4, QuadraturePlanar and Hex8: their constructors read xi before they assert its shape (refuted with a witness); it holds for QuadratureAxisymmetric, and for the others if xi has at least nip rows and ndim columns. The rest is proved.
* **C107** False of the program: it adds the unit tensor to the symmetric gradient (symGradN_vector), which is the deformation gradient only where the displacement gradient is symmetric (proved, C107_partial); in general not, refuted with a body that rotates.
* **C111** False of the Python matrix: nni, nnd, iii and iid are bound to nnu, nnp, iiu and iip (python/Matrix.hpp:143-146); refuted with a witness (C111_python_matrix_refuted), and when each property is right is proved exactly (C111_python_matrix_partial). True, and proved, for the C++ API and for the Python tyings and vector (C111_report).
* **C112** False in three respects, each with a witness: a tie on a node that is dependent itself (or such a control DOF) is accepted and Cdi is then an access out of bounds (C112_refuted; exactly when: C112_chained); a control or prescribed DOF between existing ones that no node has reads uninitialised memory (C112_holes_refuted; C112_throws says exactly what throws, C112_accepts what is accepted if there are no holes); tying matrices for fewer DOFs than the mesh has are accepted and AsDofs_i is an access out of bounds (C112_beyond). All else is proved: C112_vector, C112_calls, C112_program (tyings, matrices and vector together: accepted if and only if valid), and that the build without assertions gives the same (C112_release).
* **C113** False in two respects, each with a witness (C113_refuted): the constructor does not assert that the nodes of the connectivity exist (unlike Vector, Matrix and MatrixPartitioned), and assemble is then an access out of bounds, always (C113_conn); the solve with DOF values accesses out of bounds if and only if there are more dependent than prescribed DOFs (C113_dofval). All else is proved: C113_build, C113_release, C113_not_implemented, C113_total_partial (with exactly these two exceptions excluded), C113_dense, C113_solution (no DOF without a node).
* **C114** False in the respects of C114_refuted, each with a witness: entries of an element map, tied nodes beyond the connectivity and nodes of triangles are not asserted to exist, so the call accesses out of bounds, also with assertions; the assertion of nodaltyings reads past the end of a list for ties that do not agree; and it accepts a DOF shared by two directions. All else is proved: C114_edgesize, C114_centers, C114_elemmap2nodemap, C114_nodaltyings, C114_elem2node, C114_orientation_read, C114_orientation_set, C114_orientation_val classify every call (the ties: for DOFs that directions do not share).
* **C115** False in two respects, each refuted with a witness: the assertions of elementgrid_ravel accept reversed ranges, which select other elements (C115_ravel_refuted: rows 9 to 1 select the lowest layers) or compute with a wrapped-around difference; averageToCoarse does not assert the rows of the weights, so with fewer rows it reads out of bounds also with assertions and surplus rows are ignored (C115_average_refuted). All else is proved, in both builds.
* **C116** 
* **C117** False for FineLayer(coor, conn): with assertions enabled it still reads out of bounds, for exactly the meshes with more than one element whose first or second half is one row (C117_FineLayer_partial is the exact characterisation, C117_FineLayer_refuted a witness with one row of two elements); and asElementVector asserts nothing, so a node that does not exist is read out of bounds in both builds (C117_asElementVector). All else is proved, in both builds.
* **C120** False of the code: Element.h:1220 uses dNxi(m,i) for dNxi(m,j), and the elements of the refined layers are no boxes; refuted for both rules on the mesh of 3 x 9 x 2 (a uniform stretch gets a shear). Proved for all layers without refinement, in particular for elementsMiddleLayer on every mesh.

## 5. Modelled and not modelled

| header | modelled | not modelled |
|--------|----------|--------------|
| Mesh.h | Renumber, Reorder, dofs, RegularBase (dofsPeriodic), RegularBase2d/3d (all accessors, nodesPeriodic), overlapping, ManualStitch, Stitch, Vstack, coordination, elem2node (both), node2dof, nodaltyings, edgesize, centers, elemmap2nodemap, nodal_mass, center_of_gravity, defaultElementType | default constructors, plain getters of members |
| MeshQuad4.h | Regular, FineLayer (both constructors, every method), Map::RefineRegular, Map::FineLayer2Regular | deprecated getters (`getMap`, ...), which return the member of the modelled ones |
| MeshTri3.h | Regular, getOrientation, setOrientation (both) | - |
| MeshHex8.h | Regular, FineLayer: every method | - |
| Vector.h, VectorPartitioned.h, VectorPartitionedTyings.h | constructors, all conversions and assemblies, copy functions | template dispatch on static rank (resolved by hand) |
| TyingsPeriodic.h | Periodic, Control: every method | - |
| Matrix.h, MatrixPartitioned.h, MatrixPartitionedTyings.h, MatrixDiagonal*.h | constructors, assemble/set/add, todense, dot, solve, reaction, factorisation caches | the numerical factorisation (a parameter), `data_*()` getters |
| Element.h, ElementQuad4*.h, ElementHex8.h, detail.h | Gauss/Nodal/MidPoint rules, constructors, update_x, compute_dN, interpolation, gradients, all weak forms, matrix inverse | the weak forms of the base class that every derived class overrides (Element.h:1058-1130; the second one would not compile), `AsTensor` members that forward to Allocate.h |
| Allocate.h | asTensor, AsTensor, as3d | template machinery |
| Iterate.h, version.h, assertions.h | StopList, version string handling, is_unique | `version_dependencies`, `version_compiler` (depend on the compiler) |
| config.h | - | macros, type aliases |
| docs/examples | statics/fixed-displacement_elastic.py and its variant with manual partitioning, partial-periodic_elastic.py, periodic_elastoplastic.py and periodic_elastoplastic_finite-strain.py (set-up, increments, Newton iterations, convergence check, exception), dynamics/Elastic-Verlet and Elastic-VelocityVerlet (mass, time loop, energies), with any material law | plotting, output to files, the material library |
| python/ | the properties nnu .. iid of Periodic, VectorPartitionedTyings and MatrixPartitionedTyings (C111) | the other bindings: each was compared by a script to forward to the C++ function of the same name (the only other exception is `assembleElementVector`, bound to `assembleNodeVector`) |

## 6. Findings: where the code does not do what it says

Each is a theorem (or shows in the hypotheses of one).

1. Element.h:1220: `dNxiq(m, i)` instead of `(m, j)`: gradients of Hex8 are wrong unless the Jacobian matrix is diagonal (C64).
2. isSequential is always true (C66).
3. MatrixPartitionedTyings: dofval variants read `m_iip` for `m_iid`, ignore `b_d`; `Solve_u` ignores `b_d` (C52).
4. MatrixDiagonalPartitioned: `Solve(b)` leaves prescribed entries uninitialised; `Reaction_p` sizes its result with an uninitialised member (C54).
5. A solver shared by two matrices, or a matrix served by two solvers, uses a stale factorisation (C48).
6. ManualStitch/Stitch: duplicates in overlap_b break the bookkeeping of the number of nodes (hypothesis of C32).
7. elem2node(conn, dofs) writes out of bounds if a tied node exceeds max(conn) (C36).
8. Vector.AsDofs(nodevec) depends on the thread schedule if tied nodes have different values (C40).
9. Renumber/Reorder/partitions read uninitialised entries when the numbering has holes (C03, C42).
10. VectorPartitionedTyings: Eigen_asDofs_d returns an uninitialised vector (C45).
11. Quad4 MidPoint: weight 1 instead of 4 (C55, C57).
12. RefineRegular: the fine mesh has the element size of the coarse mesh (C29).
13. Hex8 FineLayer: open faces and periodic ties omit nodes if the outermost layer is refined (C27, C78).
14. Quad4 FineLayer(coor, conn): reads conn(-1) and conn(nelem) before it checks (C24); nfine is not recovered.
15. FineLayer elementgrid_leftright / around_ravel: out of bounds on a single layer; windows are cut off; the right side can miss a column (C76, C77).
16. setOrientation with orientation -1 swaps degenerate triangles on every call (C11).
17. StopList(0).roll_insert is undefined (C68).
18. Element.h:1104 names a member that does not exist; `GradN()` of QuadratureAxisymmetric does not compile (not exercised by any caller).
19. The constructor of MatrixPartitioned reads an uninitialised entry of the renumbering (`m_part1d`) if the DOF numbers have a hole (a number below ndof that no node has and that is not prescribed); no assertion detects it (C99_hole).
20. The constructors of Quad4::Quadrature, QuadraturePlanar and Hex8::Quadrature read `xi` before they assert its shape: out of bounds, also with assertions, if there are fewer points than weights (C101); QuadratureAxisymmetric asserts first.
21. Quad4's `InterpQuad_vector` by value allocates `shape(2)` components, but writes two: out of bounds for a field with one component (C100_Quad4_one_component). `InterpQuad_vector` and `Int_N_vector_dV` read `shape(2)` before they assert the rank.
22. `StopList::all_less` tests `!any(i >= tol)` and `descending` `!(next > previous)`: a NaN residual meets every tolerance and hides an increase, so an iteration that diverged to NaN is reported as converged (C68_nan_refuted).
23. `docs/examples/statics/periodic_elastoplastic_finite-strain.py:104-106` passes I + sym(grad u) to the material as deformation gradient (`symGradN_vector` instead of `gradN_vector_T`): a rigid rotation of 90 degrees gives a singular F (C107_volume_refuted).
24. Without assertions `Stitch::elemset(set, i)` accepts elements that mesh i does not have and returns the number of an element of the next mesh, `nodeset({...})`/`elemset({...})` over all meshes accept too few sets, and `ManualStitch` treats every mesh index above 1 as mesh "b" and returns node and element numbers of mesh "a" without looking at them (C110_release, C110_manual_silent).
25. `python/Matrix.hpp:143-146` binds the Python properties `nni`, `nnd`, `iii`, `iid` of MatrixPartitionedTyings to `nnu`, `nnp`, `iiu`, `iip`: the Python matrix reports the unknown DOFs as the independent ones and the prescribed DOFs as the dependent ones (C111_python_matrix_refuted; when each is right: C111_python_matrix_partial).
26. `Tyings::Periodic` does not assert that the independent node of a tie, the control DOFs and the prescribed DOFs are not dependent themselves: a tie on a tie is accepted and Cdi/Cdu/Cdp insert a triplet in a column that does not exist (C112_refuted, C112_chained). `VectorPartitionedTyings` does not assert nni + nnd = ndof: with DOFs beyond the tyings AsDofs_i accesses out of bounds, also with assertions (C112_beyond).
27. `MatrixPartitionedTyings` lacks the assertion `amax(conn) + 1 <= nnode` of `Vector`, `Matrix` and `MatrixPartitioned`: a connectivity with a node that does not exist is accepted, and assemble then accesses out of bounds, also with assertions (C113_conn, C113_refuted).

28. Checked build: `elemmap2nodemap` does not assert that the elements in `elem_map` exist, `elem2node(conn, dofs)` not that tied nodes occur in the connectivity, `getOrientation`/`setOrientation` not that nodes exist: out of bounds with assertions on. The assertion of `nodaltyings` (Mesh.h:2855) compares with `std::equal(r.begin(), r.end(), t.begin())` without `t.end()`: for ties that disagree it reads past the end of `t`, in a call that returns without assertions; and it accepts `[[0, 1], [1, 1]]` with a non-symmetric result (C114_refuted).
29. Checked build: `elementgrid_ravel` asserts that both bounds are in the mesh but not their order. Reversed rows select elements outside the bounds ([9, 1] in a mesh of 9 rows: the lowest layers), reversed columns compute `xu - xl` with wrap-around (C115_ravel_refuted). `averageToCoarse` asserts the rows of `data` only (C115_average_refuted).

30. The axisymmetric element passes the patch test with Gauss integration only (C116): `Nodal` (four points as well) and `MidPoint`
    do not integrate the radius times the derivatives of the shape functions exactly (C116_rules_refuted), and `MidPoint` does not
    see the hourglass displacements, of which the radial one has a circumferential strain elsewhere in the element
    (C116_midpoint). The documentation does not say so.

31. Checked build (C117): `asElementVector` asserts nothing. The quadrature's `asTensor` with the output given does not check the shape
    of the scalars in the release build: outputs whose shape does not start with theirs get scalars left out, repeated for other integration
    points, or read memory out of bounds (C117_asTensor_refuted); `Control` accepts DOFs for fewer nodes, and then its control nodes
    are no rows of `dofs` (C117_Control_refuted). `FineLayer(coor, conn)` runs out of bounds, with assertions as well, if half of the
    mesh is one row of elements (C117_FineLayer_partial, C117_FineLayer_refuted).

32. The error of finding on `Element.h:1220` (C64) is met by the library's own meshes: with `Mesh::Hex8::FineLayer(3, 9, 2)` the uniform
    stretch u = x gets the shear g/(2+g)·2 > 0 in the first element, with `Gauss` (g = 1/√3) and with `Nodal` (g = 1) (C120_refined).
    Elements of layers without refinement, among them the middle layer, are not affected (C120_partial, C120_middle_partial).
33. The same error breaks the balance of the internal forces: for a sheared cube (x = ξ + η) under a stress with only component (1, 1), the sum of
    position times force in direction 1 is zero, not the integral of the stress (C123_diagonal_needed); the resultant force is zero in any case.

### Trusted base

* Coq's kernel (8.16.1) and its standard library; Coquelicot is used for Riemann integrals in a few specifications
  (its definitions are proved from the standard library's axioms, it adds none).
* The axioms listed per theorem in section 7, all of the standard library:
  `ClassicalDedekindReals.sig_forall_dec`, `ClassicalDedekindReals.sig_not_dec` (construction of R),
  `FunctionalExtensionality.functional_extensionality_dep` (used by R), `Classical_Prop.classic` (through Coquelicot).
* The reading of the C++ by the modeller: the code is not executed; the comments at the definitions are the
  correspondence.  xtensor's views, `arange`, `linspace`, `unique`, `sort`, Eigen's sparse products are
  modelled by their documented meaning.
* No axiom, `Admitted`, functor, module type, plugin or switched-off check is used.


## 7. Assumptions of each theorem (`Print Assumptions`)

**Closed under the global context (no axiom)** (65 theorems)

C01_renumber, C01_renumber_rank2, C02_renumber_idempotent, C02_renumber_index, C03_reorder, C04_dofs, C05_dofsPeriodic, C109_build, C109_build_partitioned, C110_history, C110_history_throws, C110_manual, C110_manual_silent, C110_queries, C110_release, C112_accepts, C112_release, C112_throws, C112_vector, C114_elem2node, C114_elemmap2nodemap, C114_nodaltyings, C115_Hex8Regular, C115_RefineRegular, C115_Regular, C115_elementsLayer, C117_asTensor, C118_joined, C28_map, C28_mapToFine, C31_overlapping, C32_ManualStitch, C32_ManualStitch_only, C32_ManualStitch_throws, C33_Stitch_elemsets, C33_Stitch_exact, C33_Stitch_history, C33_Stitch_injective, C33_Stitch_nodesets, C35_elem2node, C36_elem2node_dofs, C36_elem2node_dofs_out_of_bounds, C37_nodaltyings, C37_nodaltyings_symmetric, C37_node2dof, C38_elemmap2nodemap, C38_elemmap2nodemap_any, C42_partition, C44_renumber, C66_isSequential_always_true_partial, C66_isSequential_refuted, C68_stop_empty, C69_AsTensor, C69_AsTensor_rank, C70_defaultElementType, C71_is_unique, C72_unquote, C75_induced, C75_nodemap, C79_methods, C86_regular_mesh, C94_allocate, C94_build, C94_sizes, C95_build

**`sig_forall_dec`** (53 theorems)

C112_beyond, C112_holes_refuted, C112_refuted, C113_build, C113_conn, C113_not_implemented, C113_release, C115_FineLayer, C115_Hex8FineLayer, C115_as3d, C115_mapToFine, C115_ravel_refuted, C117_Control, C117_Control_refuted, C117_asElementVector, C117_asTensor_refuted, C16_layers, C16_terminates, C23_ravel_empty, C25_layers, C25_terminates, C40_copy, C40_gather, C40_round_trips, C40_scatter, C40_scatter_any, C42_copy, C42_recombine, C42_select, C43_Control, C43_Control_fresh, C45_copy_p, C45_uninitialised, C46_dot, C46_nodevec, C48_current, C48_current_nodevec, C48_matrix, C54_Reaction_p_refuted, C68_stop_history, C69_as3d, C76_leftright_partial, C76_one_layer_refuted, C76_truncated_refuted, C77_around_all, C77_box_refuted, C94_rank, C95_combine, C95_copy, C95_select, C98_build, C99_build, C99_hole

**`functional_extensionality_dep`, `sig_forall_dec`** (245 theorems)

C06_conn, C06_coor, C06_domain, C07_boundary_quad4, C07_boundary_tri3, C08_periodic_quad4, C08_periodic_tri3, C09_area, C09_conforming_tiling, C09_elementgrid, C09_tiling, C102_setup, C104_three_nodes, C108_raise, C109_first, C109_off_diagonal, C109_total, C109_total_partitioned, C10_conforming_tiling, C10_tri3, C110_vstack, C111_python_matrix_partial, C111_python_matrix_refuted, C111_report, C112_calls, C112_chained, C112_program, C113_dense, C113_dofval, C113_refuted, C113_solution, C113_total_partial, C114_centers, C114_orientation_read, C114_orientation_set, C114_orientation_val, C114_refuted, C115_averageToCoarse_partial, C115_average_refuted, C115_mapToRegular, C115_meanToCoarse, C115_ravel_partial, C116_closed, C116_isotropic, C116_rules_refuted, C117_FineLayer_partial, C117_FineLayer_refuted, C117_assembleNodeVector, C117_center_of_gravity, C117_nodal_mass, C117_reconstruct, C118_regular, C119_mass, C11_getOrientation, C11_setOrientation, C120_middle_partial, C120_partial, C121_mass, C122_flight, C12_conn, C12_coor, C12_tiles, C13_corners, C13_edges, C13_faces, C13_open_edges, C13_open_faces, C14_periodic, C15_dofsPeriodic_hex8, C15_dofsPeriodic_quad4, C15_dofsPeriodic_tri3, C17_mesh, C18_tiles, C19_boundary, C20_periodic, C21_layers, C21_middle, C22_roll, C23_ravel, C23_ravel_all, C24_nfine, C24_one_layer_refuted, C24_reconstruct, C24_sound, C25_mesh, C26_middle, C26_tiles, C27_corners, C27_edges, C27_faces, C27_open_edges, C27_open_faces_frontback, C27_open_faces_leftright, C27_open_faces_partial, C27_open_faces_refuted, C28_averageToCoarse, C28_meanToCoarse, C28_roundtrip, C28_rows, C29_only_trivial, C29_same_domain_refuted, C29_scaled_partial, C30_area, C30_cells, C30_constructor, C30_lists, C30_mapToRegular, C30_overlap, C34_Vstack_exact, C34_Vstack_history, C39_affine, C39_center_of_gravity, C39_centers, C39_nodal_mass, C39_parallelograms, C40_schedule_dependence, C41_adjoint, C41_assemble, C44_Cdu_Cdp, C44_affine, C45_AsDofs_i, C45_work, C46_assemble, C46_elements, C47_block, C47_block_zero, C47_history, C48_shared_refuted, C48_two_matrices_refuted, C49_equals, C49_reaction, C50_matrix, C50_solve, C51_matrix, C51_solve, C52_agree_partial, C52_out_of_bounds, C52_refuted, C52_solve_u_partial, C53_history, C53_inverse, C53_matrix, C53_uninitialised, C53_variants, C54_Reaction_p_partial, C54_Solve_partial, C54_Solve_refuted, C54_equals, C54_reaction, C54_solve, C55_dinterp2, C55_gradient, C55_kronecker, C55_partition, C56_affine, C56_chain, C56_interpolation, C56_interpolation_affine, C56_transpose_symmetric, C57_MidPoint_quarter, C57_MidPoint_refuted, C57_Nodal, C57_positive, C58_nodal, C58_quadratic, C58_semidefinite, C58_symmetric, C58_total, C59_body, C59_virtual_work, C59_zero, C60_action, C60_kernel, C60_symmetric, C61_in_plane, C61_mass, C61_out_of_plane, C61_stiffness, C61_virtual_work, C61_volume, C63_dinterp3, C63_gradient, C63_interpolation, C63_kronecker, C63_partition, C64_box_partial, C64_partial, C64_sheared, C64_transpose_symmetric, C65_element_vectors, C67_isDiagonal, C68_all_less, C68_all_less_partial, C68_descending, C68_descending_partial, C68_nan_refuted, C73_Hex8, C73_Planar, C73_Quad4, C73_schedule, C74_body, C74_kernel, C74_mass, C74_stiffness, C74_symmetric, C74_virtual_work, C74_zero, C75_roll, C77_around_partial, C78_periodic, C78_periodic_refuted, C79_hex8_finelayer, C79_hex8_regular, C79_quad4_finelayer, C79_quad4_regular, C79_tri3_regular, C84_translation, C85_momentum, C86_uniform, C87_held, C87_hourglass, C88_finelayer, C88_hex8, C88_quad4, C88_setup, C88_tri3, C90_ldlt, C90_periodic_stable, C91_closed, C91_joined, C91_joined_tri, C91_quads, C91_tri, C92_boundary, C92_cell, C92_divergence, C94_by_value, C94_total, C96_cfl, C96_outputs, C96_same, C98_by_value, C98_release, C98_total, C99_total

**`classic`, `functional_extensionality_dep`, `sig_forall_dec`** (1 theorems)

C78_periodic_partial

**`functional_extensionality_dep`, `sig_forall_dec`, `sig_not_dec`** (125 theorems)

C100_Quad4_one_component, C100_affine, C100_by_value, C100_checked, C100_getters, C100_methods, C101_constructor, C101_constructor_only, C101_constructor_refuted, C101_constructor_throws_partial, C101_update_x, C102_force, C102_shear, C102_uniform, C103_manual, C104_boundary, C104_cell, C104_patch, C104_periodic, C104_restrained, C104_rigid, C104_stable, C104_statics, C105_chain, C105_forces, C105_hex8_refuted, C105_nominal, C105_power, C105_volume, C106_run, C106_start, C106_stress, C107_partial, C107_volume_partial, C107_volume_refuted, C108_finite, C108_linear, C108_raised, C108_small, C114_edgesize, C116_bodies, C116_connected, C116_cylinder, C116_floating, C116_held, C116_midpoint, C116_no_strain, C116_patch, C116_rules, C116_statics, C116_stretch, C116_tube, C116_uniform, C116_volume, C119_regular, C119_volume, C120_refined, C120_refuted, C121_fine, C121_quad, C121_regular, C122_fine, C122_regular, C123_diagonal_needed, C123_hex, C123_moments, C123_quad, C124_angular, C124_hex, C124_quad, C125_hex, C125_quad, C125_reactions, C39_edgesize, C39_other_types, C57_Gauss, C62_affine, C62_body, C62_gradient, C62_mass, C62_mass_form, C62_resultant, C62_stiffness, C62_stiffness_symmetric, C62_transpose_symmetric, C62_virtual_work, C62_volume, C64_refuted, C73_Axisym, C80_dot, C80_energy, C80_symmetric, C81_tangent, C81_tangent_grad, C82_statics, C83_newton, C84_rotation, C84_virtual_work, C85_reversible, C86_affine, C86_patch, C86_rules, C87_regular_mesh, C87_rigid, C87_rules, C87_statics, C87_unique, C88_forces, C88_newton, C89_run, C89_stress, C90_periodic_spd, C90_regular_periodic, C90_statics, C90_statics_spd, C92_bodies, C93_held, C93_patch, C93_periodic, C93_stable, C93_statics, C96_bounded, C96_energy, C97_program, C97_same

**`classic`, `functional_extensionality_dep`, `sig_forall_dec`, `sig_not_dec`** (8 theorems)

C55_MidPoint_refuted, C55_gauss, C55_nodal, C57_area_integral, C62_Gauss, C63_gauss, C63_nodal, C74_Gauss

