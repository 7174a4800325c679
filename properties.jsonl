{"id": "C01", "title": "renumber is compact and order preserving", "statement": "Mesh::renumber(dofs) (Mesh::Renumber::apply) never reads or writes out of bounds nor an uninitialised entry; its output uses exactly the numbers 0..k-1 where k is the number of distinct input numbers; two entries get equal (smaller) new numbers exactly when their old numbers are equal (smaller).", "quantifier": "every array of dofs, of any size, with any gaps and duplicates", "why_tests_cant": "infinitely many gap/duplicate patterns; a test fixes one", "anchors": ["include/GooseFEM/Mesh.h: Renumber, renumber, detail::renum"]}
{"id": "C02", "title": "Renumber.index is consistent with apply and renumbering is idempotent", "statement": "Renumber::index() looked up at any number that occurs in the list is the number returned by apply(); renumbering an already renumbered array changes nothing.", "quantifier": "every dofs array", "why_tests_cant": "holds for all inputs; tests sample", "anchors": ["include/GooseFEM/Mesh.h: Renumber::index, Renumber::apply"]}
{"id": "C03", "title": "Reorder numbers items by their position in the concatenated lists", "statement": "For lists that are jointly duplicate free, Mesh::Reorder(lists) maps the n-th item of the concatenation to n; applying it to any array whose entries all occur in the lists succeeds and is injective; a read of a number that does not occur in the lists is a read of an uninitialised entry (reported as such, not hidden).", "quantifier": "every collection of lists (including empty ones) and every array to which it is applied", "why_tests_cant": "unbounded number of lists and sizes", "anchors": ["include/GooseFEM/Mesh.h: Reorder, detail::renum"]}
{"id": "C04", "title": "Sequential DOFs are a bijection", "statement": "Mesh::dofs(nnode, ndim) assigns to node m and direction i the number m*ndim+i: every number in [0, nnode*ndim) is used exactly once.", "quantifier": "all nnode, ndim", "why_tests_cant": "all sizes", "anchors": ["include/GooseFEM/Mesh.h: dofs, RegularBase::dofs"]}
{"id": "C05", "title": "Periodic DOFs tie exactly the listed pairs", "statement": "For a list of (independent, dependent) pairs in which every dependent node occurs once and no independent node is itself dependent, dofsPeriodic gives two (node, direction) entries the same number if and only if the directions agree and the nodes have the same representative; numbers are compact (0..k-1), increasing with the representative.", "quantifier": "every number of nodes/directions and every such list of ties", "why_tests_cant": "quantifies over all tie lists", "anchors": ["include/GooseFEM/Mesh.h: RegularBase::dofsPeriodic, Renumber"]}
{"id": "C06", "title": "Quad4.Regular: coordinates and connectivity", "statement": "Mesh::Quad4::Regular(nelx, nely, h): coor() has nnode rows and conn() nelem rows; conn only holds existing nodes; element (ix,iy) (number iy*nelx+ix) has its four nodes at h*(ix,iy), h*(ix+1,iy), h*(ix+1,iy+1), h*(ix,iy+1), in that (counter-clockwise) order; every node belongs to an element.", "quantifier": "all nelx, nely >= 1 and all h", "why_tests_cant": "all mesh sizes", "anchors": ["include/GooseFEM/MeshQuad4.h: Regular::coor_impl, Regular::conn_impl"]}
{"id": "C07", "title": "Quad4.Regular / Tri3.Regular: boundary node sets", "statement": "Each of nodes{Bottom,Top,Left,Right}Edge lists exactly the nodes whose coordinate lies on that edge of the domain, each once, in increasing coordinate; the OpenEdge variants are the same lists without the two corner nodes; the corner functions return the nodes at the four corners of the domain.", "quantifier": "all nelx, nely >= 1", "why_tests_cant": "all mesh sizes", "anchors": ["include/GooseFEM/MeshQuad4.h: Regular::nodes*Edge_impl", "include/GooseFEM/MeshTri3.h: Regular::nodes*Edge_impl"]}
{"id": "C08", "title": "Regular 2-d meshes: periodic node pairs", "statement": "nodesPeriodic() pairs every node on the top/right boundary with the node at the same position modulo the size of the domain; the dependent nodes are exactly the nodes on the top or right edge, each listed once, and no dependent node is listed as independent.", "quantifier": "all nelx, nely >= 1", "why_tests_cant": "all mesh sizes", "anchors": ["include/GooseFEM/Mesh.h: RegularBase2d::nodesPeriodic_impl"]}
{"id": "C09", "title": "Quad4.Regular: elementgrid and tiling", "statement": "elementgrid()(iy,ix) is the number of the element at column ix and row iy; it contains each element exactly once; each element has area h^2 and the areas add up to the area of the domain.", "quantifier": "all nelx, nely, h", "why_tests_cant": "all mesh sizes", "anchors": ["include/GooseFEM/MeshQuad4.h: Regular::elementgrid"]}
{"id": "C10", "title": "Tri3.Regular: coordinates and connectivity", "statement": "Mesh::Tri3::Regular: conn() has nelem rows with existing nodes, each triangle is counter-clockwise with area h^2/2, the two triangles of cell (ix,iy) share its diagonal and have the corners of that cell as nodes.", "quantifier": "all nelx, nely >= 1, all h", "why_tests_cant": "all mesh sizes", "anchors": ["include/GooseFEM/MeshTri3.h: Regular::coor_impl, Regular::conn_impl"]}
{"id": "C11", "title": "Tri3 orientation", "statement": "getOrientation returns -1 exactly for counter-clockwise triangles (positive signed area) and +1 otherwise, setOrientation(coor, conn, o) returns triangles with the same node sets, whose orientation is o for every non-degenerate triangle, and leaves triangles that already have that orientation unchanged (hence is idempotent).", "quantifier": "all coordinates, connectivities and o in {-1,+1}", "why_tests_cant": "all geometries", "anchors": ["include/GooseFEM/MeshTri3.h: getOrientation, setOrientation"]}
{"id": "C12", "title": "Hex8.Regular: coordinates and connectivity", "statement": "Mesh::Hex8::Regular: counts, conn in range, the eight nodes of element (ix,iy,iz) are at the eight corners of the cube [ix,ix+1]x[iy,iy+1]x[iz,iz+1] times h in the documented order; every node is used; the elements tile the box (positive Jacobian, cover, no overlap, no hanging nodes).", "quantifier": "all nelx, nely, nelz >= 1, all h", "why_tests_cant": "all mesh sizes", "anchors": ["include/GooseFEM/MeshHex8.h: Regular::coor_impl, Regular::conn_impl"]}
{"id": "C13", "title": "Hex8.Regular: boundary node sets", "statement": "Each face/edge/open-edge/open-face/corner function returns exactly the nodes with the corresponding coordinates, each once.", "quantifier": "all nelx, nely, nelz >= 1", "why_tests_cant": "all mesh sizes", "anchors": ["include/GooseFEM/MeshHex8.h: Regular::nodes*_impl"]}
{"id": "C14", "title": "Regular 3-d mesh: periodic node pairs", "statement": "nodesPeriodic() of Hex8::Regular pairs nodes that are at the same position modulo the size of the domain; every node on the back, right or top face appears exactly once as dependent node and nothing else does; no dependent node is independent.", "quantifier": "all nelx, nely, nelz >= 1", "why_tests_cant": "all mesh sizes", "anchors": ["include/GooseFEM/Mesh.h: RegularBase3d::nodesPeriodic_impl"]}
{"id": "C15", "title": "Periodic DOFs of the regular meshes", "statement": "dofsPeriodic() of Quad4/Tri3 Regular has exactly nelx*nely*2 distinct DOFs (Hex8: nelx*nely*nelz*3), and two nodes share their DOFs iff their positions agree modulo the size of the domain.", "quantifier": "all sizes >= 1", "why_tests_cant": "all mesh sizes", "anchors": ["include/GooseFEM/Mesh.h: RegularBase::dofsPeriodic, nodesPeriodic_impl"]}
{"id": "C16", "title": "Quad4.FineLayer: layer structure", "statement": "For every (nelx, nely, nfine) the constructor terminates; the list of layers is symmetric about the middle; the block width (in h) is a power of 3 that divides nelx, it does not increase toward the middle and changes by a factor three across exactly the refinement layers; blocks of normal layers are square, refinement blocks have height 2/3 of the width; the middle layer is fine; the total height is at least the requested one (up to parity) and a mesh without room to coarsen has exactly the requested (odd) height.", "quantifier": "all nelx, nely >= 1, nfine", "why_tests_cant": "the coarsening loop depends on divisibility and size", "anchors": ["include/GooseFEM/MeshQuad4.h: FineLayer::init"]}
{"id": "C17", "title": "Quad4.FineLayer: sizes and connectivity range", "statement": "conn() fills exactly nelem rows, coor() fills exactly nnode rows (no write out of bounds, no row left uninitialised), every entry of conn is < nnode and every node is used by an element.", "quantifier": "all nelx, nely >= 1, nfine", "why_tests_cant": "node offsets are computed by running sums over data-dependent layers", "anchors": ["include/GooseFEM/MeshQuad4.h: FineLayer::init, coor_impl, conn_impl"]}
{"id": "C18", "title": "Quad4.FineLayer: geometry", "statement": "The elements tile the domain [0,nelx h] x [0,nely h] without hanging nodes: every element is a strictly convex counter-clockwise quadrilateral, every point of the domain is in an element, the interior of an element meets no other element, a node that lies in an element is one of its corners; no two nodes are at the same position; the areas sum to the area of the domain.", "quantifier": "all nelx, nely >= 1, nfine, h > 0", "why_tests_cant": "all meshes", "anchors": ["include/GooseFEM/MeshQuad4.h: FineLayer::coor_impl, conn_impl"]}
{"id": "C19", "title": "Quad4.FineLayer: boundary node sets", "statement": "The edge functions return exactly the nodes on the corresponding side of the domain in increasing order, the open versions omit the corners, and the corner functions are at the corners.", "quantifier": "all nelx, nely >= 1, nfine", "why_tests_cant": "all meshes", "anchors": ["include/GooseFEM/MeshQuad4.h: FineLayer::nodes*_impl"]}
{"id": "C20", "title": "Quad4.FineLayer: periodicity", "statement": "nodesPeriodic() pairs nodes at the same height (left/right) or same horizontal position (bottom/top), all of them; dofsPeriodic() gives two nodes the same DOFs exactly when they are periodic images, and numbers the DOFs consecutively.", "quantifier": "all nelx, nely >= 1, nfine", "why_tests_cant": "all meshes", "anchors": ["include/GooseFEM/Mesh.h: RegularBase2d::nodesPeriodic_impl", "include/GooseFEM/MeshQuad4.h: FineLayer"]}
{"id": "C21", "title": "Quad4.FineLayer: elements per layer", "statement": "elementsLayer(0), elementsLayer(1), ... concatenated are 0..nelem-1; every element of elementsLayer(i) lies in the height range of layer i; elementsMiddleLayer is the list of h x h elements at the middle height.", "quantifier": "all meshes and layers", "why_tests_cant": "all meshes", "anchors": ["include/GooseFEM/MeshQuad4.h: FineLayer::elementsLayer, elementsMiddleLayer"]}
{"id": "C22", "title": "Quad4.FineLayer: roll", "statement": "roll(n) is a permutation of the elements; the element at position e is that of roll(n)[e] translated by n coarsest blocks, modulo the width of the mesh; roll(0) and roll(nelx of the coarsest layer) are the identity, and roll(n) composed with roll(m) is roll(n+m).", "quantifier": "all meshes, all n", "why_tests_cant": "all meshes and shifts", "anchors": ["include/GooseFEM/MeshQuad4.h: FineLayer::roll"]}
{"id": "C23", "title": "Quad4.FineLayer: elementgrid_ravel", "statement": "elementgrid_ravel(rows,cols) selects exactly the elements all of whose corners are in the window of whole layers that contain the rows and of the columns rounded down to the blocks of the coarsest of the outer layers; the result is strictly increasing; omitted arguments are the full ranges, which select all elements in order; an empty range selects nothing.", "quantifier": "all meshes, all non-empty ranges in the mesh (first < last)", "why_tests_cant": "all meshes and selections", "anchors": ["include/GooseFEM/MeshQuad4.h: FineLayer::elementgrid_ravel"]}
{"id": "C24", "title": "Quad4.FineLayer: reconstruction from coor/conn", "statement": "Constructing FineLayer(mesh.coor(), mesh.conn()) in exact arithmetic recovers a mesh with identical layers whenever the mesh was created with the default nfine.", "quantifier": "all nelx, nely >= 1, h > 0", "why_tests_cant": "requires idempotence of the coarsening for all sizes", "anchors": ["include/GooseFEM/MeshQuad4.h: FineLayer::init_by_mapping"]}
{"id": "C25", "title": "Hex8.FineLayer: layer structure, sizes and connectivity range", "statement": "The constructor terminates; the layers are symmetric about the middle, at least nfine are of single cubes, block widths in x and z divide nelx and nelz and grow by a factor 3 outwards exactly where the documented rules ask for it, heights follow; conn() fills exactly nelem rows, coor() exactly nnode rows, conn is in range and every node is used.", "quantifier": "all nelx, nely, nelz >= 1, nfine, h", "why_tests_cant": "all meshes", "anchors": ["include/GooseFEM/MeshHex8.h: FineLayer"]}
{"id": "C26", "title": "Hex8.FineLayer: geometry", "statement": "The elements tile the box [0,Lx] x [0,Ly] x [0,Lz]: every element is a non-degenerate right-handed hexahedron, every point is in an element, no two elements overlap, neighbours share whole faces (no hanging nodes); elementsMiddleLayer lists the unit cubes at mid height in the order of their positions.", "quantifier": "all nelx, nely, nelz >= 1, nfine, h > 0", "why_tests_cant": "all meshes", "anchors": ["include/GooseFEM/MeshHex8.h: FineLayer::coor_impl, conn_impl, elementsMiddleLayer"]}
{"id": "C27", "title": "Hex8.FineLayer: boundary node sets", "statement": "nodesFront/Back/Left/Right/Bottom/Top list exactly the nodes on that face, each once; likewise the twelve edges, the twelve open edges and the eight corners; the open faces (nodes*Face) are the faces without their edges.", "quantifier": "all nelx, nely, nelz >= 1, nfine, h > 0", "why_tests_cant": "all meshes", "anchors": ["include/GooseFEM/MeshHex8.h: FineLayer::nodes*_impl"]}
{"id": "C28", "title": "RefineRegular: the map is a partition", "statement": "Map::RefineRegular(mesh,nx,ny).map(): each fine element occurs in exactly one row, the row of the coarse element whose grid cell contains it; meanToCoarse(mapToFine(data)) == data; averageToCoarse is the weighted mean; the total is conserved.", "quantifier": "all coarse meshes, nx, ny >= 1, data", "why_tests_cant": "all sizes", "anchors": ["include/GooseFEM/MeshQuad4.h: Map::RefineRegular"]}
{"id": "C29", "title": "RefineRegular: the fine mesh covers the coarse mesh", "statement": "The fine mesh subdivides the coarse mesh: it covers the same domain.", "quantifier": "all coarse meshes, nx, ny >= 1", "why_tests_cant": "all sizes", "anchors": ["include/GooseFEM/MeshQuad4.h: Map::RefineRegular::RefineRegular"]}
{"id": "C30", "title": "FineLayer2Regular: overlap fractions", "statement": "The fractions per FineLayer element sum to its area in units of h^2, the fractions per Regular element sum to 1; hence mapToRegular maps a constant field to that constant and conserves the integral.", "quantifier": "all FineLayer meshes and all data", "why_tests_cant": "all meshes", "anchors": ["include/GooseFEM/MeshQuad4.h: Map::FineLayer2Regular"]}
{"id": "C31", "title": "overlapping is complete and sound", "statement": "Mesh::overlapping(a,b) returns exactly the pairs (i,j) of nodes that are close in all coordinates, lexicographically ordered without duplicates.", "quantifier": "all node clouds, tolerances and dimensions", "why_tests_cant": "all inputs", "anchors": ["include/GooseFEM/Mesh.h: overlapping"]}
{"id": "C32", "title": "ManualStitch", "statement": "For duplicate-free lists of overlapping nodes in range: coor has nnode_a+nnode_b-noverlap rows; mesh a keeps its numbering; every node of b is mapped by nodemap(1) to a node in range; two nodes of b never collapse, a b node collapses with an a node exactly when listed; the position of the mapped node is the original position for non-overlapping nodes and that of the partner otherwise; each element keeps its nodes; conn stays in range; nodeset/elemset map sets.", "quantifier": "all pairs of meshes and overlap lists", "why_tests_cant": "all inputs", "anchors": ["include/GooseFEM/Mesh.h: ManualStitch"]}
{"id": "C33", "title": "Stitch: every history of push_back", "statement": "After any sequence of push_back: nmesh() is the number of calls; elemmap(i) are consecutive, disjoint ranges covering all elements; nodemap(i) composed with mesh i's connectivity gives rows elemmap(i) of conn; node positions are preserved up to the tolerance; conn in range; no two nodes of the same mesh are merged.", "quantifier": "every sequence of meshes", "why_tests_cant": "unbounded histories", "anchors": ["include/GooseFEM/Mesh.h: Stitch"]}
{"id": "C34", "title": "Vstack: every history of push_back", "statement": "After any sequence of push_back, mesh i is placed on top of the previous ones (shift = current maximum y), its bottom nodes are identified with the top nodes of mesh i-1, and nodemap/elemmap/nodeset behave as for Stitch.", "quantifier": "every sequence of meshes", "why_tests_cant": "unbounded histories", "anchors": ["include/GooseFEM/Mesh.h: Vstack"]}
{"id": "C35", "title": "elem2node and coordination", "statement": "elem2node(conn)[m] lists exactly the elements that contain node m (once per occurrence, in increasing order); coordination(conn)[m] is its length; sizes are max(conn)+1.", "quantifier": "all connectivities", "why_tests_cant": "all inputs", "anchors": ["include/GooseFEM/Mesh.h: elem2node, coordination"]}
{"id": "C36", "title": "elem2node with periodic dofs", "statement": "elem2node(conn, dofs)[m] lists the elements of all nodes tied to m; it is out of bounds when dofs has more nodes than conn uses.", "quantifier": "all connectivities and dofs", "why_tests_cant": "all inputs", "anchors": ["include/GooseFEM/Mesh.h: elem2node(conn, dofs)"]}
{"id": "C37", "title": "node2dof and nodaltyings", "statement": "nodaltyings(dofs)[m] is the sorted list of all nodes that share the first DOF of m (an equivalence relation: contains m, symmetric); node2dof(dofs)[d] lists the nodes that have DOF d.", "quantifier": "all dofs", "why_tests_cant": "all inputs", "anchors": ["include/GooseFEM/Mesh.h: nodaltyings, node2dof"]}
{"id": "C38", "title": "elemmap2nodemap", "statement": "If the elements are renumbered by a map that corresponds to a consistent renumbering of nodes, elemmap2nodemap recovers that node renumbering: new node m is old node nodemap[m].", "quantifier": "all Quad4 meshes and consistent element maps", "why_tests_cant": "all inputs", "anchors": ["include/GooseFEM/Mesh.h: elemmap2nodemap"]}
{"id": "C39", "title": "centers, edgesize, nodal_mass, center_of_gravity", "statement": "centers is the mean of the four nodes of the element; edgesize are the lengths of the four sides; nodal_mass sums to the total area and is positive for convex elements; center_of_gravity is the mass-weighted mean and commutes with translations and all invertible affine maps; other element types are refused.", "quantifier": "all Quad4 meshes", "why_tests_cant": "all geometries", "anchors": ["include/GooseFEM/Mesh.h: centers, edgesize, nodal_mass, center_of_gravity"]}
{"id": "C40", "title": "Vector: conversions are mutually inverse, for every thread schedule", "statement": "AsNode/AsElement read the value of the DOF; AsDofs(AsNode(x)) == x for compact dofs, AsNode(AsDofs(u)) == u for nodevec that agree on tied DOFs, AsDofs(AsElement(x)) == x when every DOF occurs in an element; under any interleaving of the parallel loop the result is the same for consistent input and may differ otherwise.", "quantifier": "all conn, dofs, data, all thread schedules", "why_tests_cant": "schedules are not controllable in tests", "anchors": ["include/GooseFEM/Vector.h: asDofs, asNode, asElement"]}
{"id": "C41", "title": "Vector: assembly", "statement": "AssembleDofs/AssembleNode sum all contributions; assembly is the adjoint of the gather: sum_d x_d*(AssembleDofs f)_d == sum_{e,m,i} (AsElement x)*f; totals are conserved.", "quantifier": "all conn, dofs, data", "why_tests_cant": "all inputs", "anchors": ["include/GooseFEM/Vector.h: assembleDofs, assembleNode"]}
{"id": "C42", "title": "VectorPartitioned: partition and recombination", "statement": "iiu and iip partition the DOFs; AsDofs_u/AsDofs_p select those DOFs in order; DofsFromParitioned, NodeFromPartitioned, ElementFromPartitioned invert the split; Copy_u/Copy_p change only the unknown/prescribed part.", "quantifier": "all dofs, iip, data", "why_tests_cant": "all inputs", "anchors": ["include/GooseFEM/VectorPartitioned.h"]}
{"id": "C43", "title": "Tyings::Control appends free control nodes", "statement": "Tyings::Control(coor, dofs) keeps the position and the DOFs of every existing node and appends ndim nodes at the origin. The DOFs of these control nodes are pairwise distinct and were not the DOF of any node; control_nodes() lists the appended nodes and control_dofs() their DOFs, row i belonging to control node i.", "quantifier": "all coor/dofs", "why_tests_cant": "all inputs", "anchors": ["include/GooseFEM/TyingsPeriodic.h: Control"]}
{"id": "C44", "title": "Tyings::Periodic encodes the affine periodicity constraint", "statement": "Tyings::Periodic renumbers the DOFs, without merging or splitting any, such that the unknown independent DOFs come first, then the prescribed ones, then the dependent ones in the order of the tied node pairs. For nodal displacements u, the dependent DOF values are Cdi() times the independent ones if and only if every tied pair satisfies u_dep = u_indep + F (x_dep - x_indep) in every direction, with F the values of the control DOFs. Cdu() and Cdp() are the two column blocks of Cdi().", "quantifier": "all coordinates, dofs, ties, control dofs, prescribed dofs", "why_tests_cant": "all inputs", "anchors": ["include/GooseFEM/TyingsPeriodic.h: Periodic"]}
{"id": "C45", "title": "VectorPartitionedTyings", "statement": "VectorPartitionedTyings::AsDofs_i(nodevec) returns the values of the independent DOFs plus the transpose of Cdi times those of the dependent DOFs, for every order of its two parallel loops; hence the condensed vector does the same work as the full one on every displacement that satisfies the tyings. Copy_p changes exactly the prescribed DOFs.", "quantifier": "all inputs", "why_tests_cant": "all inputs", "anchors": ["include/GooseFEM/VectorPartitionedTyings.h"]}
{"id": "C46", "title": "Matrix: assemble, todense, dot", "statement": "Matrix::assemble(elemmat) makes entry (a, b) of the matrix the sum of the entries of the element matrices whose row belongs to DOF a and whose column belongs to DOF b, whatever the matrix was before; todense shows it, and symmetric element matrices give a symmetric matrix. Dot(x) equals the element-wise products K_e x_e assembled, and x.Dot(x) the sum of the element energies; the variants for nodal vectors and for DOF values agree, for every order of the parallel loop.", "quantifier": "all conn, dofs, element matrices", "why_tests_cant": "all inputs", "anchors": ["include/GooseFEM/Matrix.h: Matrix"]}
{"id": "C47", "title": "Matrix: set/add histories", "statement": "For a new Matrix (zero) and after any sequence of assemble, set and add, every entry of todense is what these operations make of it one after the other: assemble and set(rows, cols, block) replace the whole matrix, add(rows, cols, block) adds to it. For distinct rows and columns the block that was set is read back, and the rest is zero.", "quantifier": "every sequence of operations", "why_tests_cant": "unbounded histories", "anchors": ["include/GooseFEM/Matrix.h: Matrix::set, add, assemble"]}
{"id": "C48", "title": "Solver factorization cache", "statement": "For any number of matrices and solvers, each solver used with its own matrix, and for every interleaving of assemble, set, add and solve: Solve(A, b) returns x with A x = b for the current matrix A (the cached factorization is never stale), for DOF values and for nodal vectors; solving never changes a matrix. It is false when two solvers share a matrix or one solver serves two matrices.", "quantifier": "every history", "why_tests_cant": "unbounded histories", "anchors": ["include/GooseFEM/Matrix.h: MatrixSolver::factorize", "include/GooseFEM/MatrixPartitioned.h", "include/GooseFEM/MatrixPartitionedTyings.h"]}
{"id": "C49", "title": "MatrixPartitioned equals Matrix", "statement": "After any sequence of assemble, set and add, todense and Dot of a MatrixPartitioned are those of the Matrix with the same history. Reaction(x, b) replaces exactly the prescribed entries of b by those of A x and keeps the others, and Reaction_p gives those entries; for DOF values and nodal vectors.", "quantifier": "all inputs", "why_tests_cant": "all inputs", "anchors": ["include/GooseFEM/MatrixPartitioned.h"]}
{"id": "C50", "title": "MatrixPartitionedSolver", "statement": "After any sequence of changes of a MatrixPartitioned and of solves, Solve(A, b, x) keeps the prescribed entries of x, and the product of the current matrix with the result equals b on all unknown DOFs; for DOF values, for nodal vectors and for separate unknown and prescribed parts (Solve_u). Solving does not change the matrix.", "quantifier": "all matrices with invertible A_uu", "why_tests_cant": "all inputs", "anchors": ["include/GooseFEM/MatrixPartitioned.h: MatrixPartitionedSolver"]}
{"id": "C51", "title": "MatrixPartitionedTyingsSolver: nodevec solve", "statement": "After any sequence of assemble and solve, MatrixPartitionedTyingsSolver::Solve on nodal vectors keeps the prescribed values of x, its result satisfies the tyings x_d = Cdu x_u + Cdp x_p, and is in condensed equilibrium: the unknown rows of T^t (A x - b) are zero, with T the map from independent to all DOFs and A the matrix of the last assemble.", "quantifier": "all matrices with invertible condensed matrix", "why_tests_cant": "all inputs", "anchors": ["include/GooseFEM/MatrixPartitionedTyings.h: MatrixPartitionedTyingsSolver"]}
{"id": "C52", "title": "MatrixPartitionedTyingsSolver: dofval and nodevec variants agree", "statement": "MatrixPartitionedTyingsSolver::Solve on DOF values gives the same result as Solve on the corresponding nodal vectors, without access out of bounds; Solve_u solves the same condensed system.", "quantifier": "all inputs", "why_tests_cant": "all inputs", "anchors": ["include/GooseFEM/MatrixPartitionedTyings.h: solve_dofval_impl, AsDofs_d"]}
{"id": "C53", "title": "MatrixDiagonal", "statement": "After any sequence of assemble, set and solve that starts by giving a MatrixDiagonal a value, data, todense and Dot are those of the diagonal of the last assemble or set, and Dot and Solve are inverse to each other if the diagonal has no zero (the cached inverse is never stale); the variants for nodal vectors agree with those for DOF values. For element matrices without off-diagonal entries MatrixDiagonal is Matrix. Solving before a value was given reads memory that was never written.", "quantifier": "all inputs and histories", "why_tests_cant": "unbounded histories", "anchors": ["include/GooseFEM/MatrixDiagonal.h"]}
{"id": "C54", "title": "MatrixDiagonalPartitioned", "statement": "After the same history a MatrixDiagonalPartitioned is the same matrix as a MatrixDiagonal (data, todense, Dot). Solve keeps the prescribed entries of x and gives the product b on the unknown DOFs; Reaction replaces the prescribed entries of b by those of the product; Solve without an array of prescribed values returns defined values, and Reaction_p returns the prescribed part of the product.", "quantifier": "all inputs", "why_tests_cant": "all inputs", "anchors": ["include/GooseFEM/MatrixDiagonalPartitioned.h"]}
{"id": "C55", "title": "Quad4 shape functions", "statement": "The shape functions of Quad4 sum to one everywhere, are 1 at their own node and 0 at the others, and the tabulated derivatives are their gradients in the local coordinates. The rules Gauss and Nodal integrate every product of linear (Gauss: cubic) polynomials in the two local coordinates exactly over the reference square; MidPoint does not even integrate constants.", "quantifier": "all local coordinates", "why_tests_cant": "continuum of points", "anchors": ["include/GooseFEM/ElementQuad4.h: Quadrature, Gauss, Nodal"]}
{"id": "C56", "title": "Quad4 gradients are exact for affine fields", "statement": "For every quadrilateral with non-zero Jacobian the gradient that Quad4 computes of u = a + B x is B^T at every integration point (and in general it is the chain rule applied to the interpolation); interpolation reproduces affine fields exactly at the integration points; GradN_vector_T is the transpose of GradN_vector and SymGradN_vector its symmetric part.", "quantifier": "all geometries, all quadratures", "why_tests_cant": "continuum of geometries", "anchors": ["include/GooseFEM/ElementQuad4.h: compute_dN_impl, gradN_vector_impl, interpQuad_vector_impl"]}
{"id": "C57", "title": "Integration volumes sum to the element area", "statement": "dV() of Quad4 summed over the integration points is the area of the quadrilateral, for each built-in quadrature (Gauss, Nodal, MidPoint); the area is also the integral of the Jacobian over the reference square, and every dV is positive for convex counter-clockwise elements.", "quantifier": "all geometries", "why_tests_cant": "continuum of geometries", "anchors": ["include/GooseFEM/ElementQuad4.h: compute_dN_impl, MidPoint::w"]}
{"id": "C58", "title": "Mass matrix", "statement": "Int_N_scalar_NT_dV(rho) of Quad4 gives a symmetric element matrix that does not couple the directions, with x^t M x the integral of rho |u|^2 (hence positive semi-definite if rho dV >= 0), entries per direction that sum to the integral of rho, and that is diagonal for the Nodal rule.", "quantifier": "all geometries and fields", "why_tests_cant": "continuum", "anchors": ["include/GooseFEM/ElementQuad4.h: int_N_scalar_NT_dV_impl"]}
{"id": "C59", "title": "Internal force: virtual work", "statement": "For every stress field, the element forces f = Int_gradN_dot_tensor2_dV(sigma) of Quad4 do the work sum f.u = sum_q (sigma : grad u) dV on every nodal displacement, and their sum over the nodes is zero; the forces of Int_N_vector_dV(b) do the work sum_q b.u dV and sum to the integral of b.", "quantifier": "all geometries, stress and displacement fields", "why_tests_cant": "continuum", "anchors": ["include/GooseFEM/ElementQuad4.h: int_gradN_dot_tensor2_dV_impl"]}
{"id": "C60", "title": "Stiffness", "statement": "The element matrix Int_gradN_dot_tensor4_dot_gradNT_dV(C) of Quad4 applied to nodal displacements u is Int_gradN_dot_tensor2_dV(C : grad u), for every C; it is symmetric if C has the major symmetry, and rigid translations are in its kernel.", "quantifier": "all geometries, tensors", "why_tests_cant": "continuum", "anchors": ["include/GooseFEM/Element.h: int_gradN_dot_tensor4_dot_gradNT_dV_impl"]}
{"id": "C61", "title": "Quad4Planar", "statement": "Quad4Planar: the gradient is a 3 x 3 tensor with zero out-of-plane components and the in-plane components of Quad4, exact for affine fields; dV is that of Quad4 times the thickness; internal forces do the work of the stress on the gradient, the stiffness is their linearisation, and the mass matrix and the body forces are the quadratic form of the density and the work of the load, with these volumes.", "quantifier": "all geometries, thickness", "why_tests_cant": "continuum", "anchors": ["include/GooseFEM/ElementQuad4Planar.h"]}
{"id": "C62", "title": "Quad4Axisymmetric", "statement": "Quad4Axisymmetric, for elements at positive radius: the gradient has the in-plane components of Quad4 (exact for affine fields) and the hoop component u_r / r, its transpose and symmetric part are consistent; dV is 2 pi r times that of Quad4, and for Gauss sums to the volume of the body of revolution; internal forces do the work of the stress on the gradient, the stiffness is their linearisation and symmetric for C with the major symmetry, the resultant of the internal forces along the axis is zero and the radial one is the hoop stress over the radius; the mass matrix is symmetric, does not couple components, sums to the mass and is positive semi-definite; the nodal forces of a body force do its work on the interpolated displacement and add up to it.", "quantifier": "all geometries", "why_tests_cant": "continuum", "anchors": ["include/GooseFEM/ElementQuad4Axisymmetric.h"]}
{"id": "C63", "title": "Hex8 shape functions", "statement": "The shape functions of Hex8 sum to one, are 1 at their own node and 0 at the others, the tabulated derivatives are their gradients in the local coordinates; the Gauss and Nodal rules integrate every product of linear (Gauss: cubic) polynomials in the three local coordinates exactly; InterpQuad_vector is the interpolation by the shape functions at the integration points.", "quantifier": "all local coordinates", "why_tests_cant": "continuum", "anchors": ["include/GooseFEM/ElementHex8.h"]}
{"id": "C64", "title": "Hex8 gradients are exact for affine fields", "statement": "The gradient that Hex8 computes of u = a + B x is B^T at every integration point, for every hexahedron with non-zero Jacobian; GradN_vector_T is its transpose and SymGradN_vector its symmetric part.", "quantifier": "all geometries", "why_tests_cant": "continuum of geometries", "anchors": ["include/GooseFEM/Element.h: QuadratureBaseCartesian::compute_dN_impl", "include/GooseFEM/ElementHex8.h"]}
{"id": "C65", "title": "asElementVector / assembleNodeVector", "statement": "Element::asElementVector(conn, nodevec) gives every node of every element the value of that node; assembleNodeVector(conn, elemvec) gives every node the sum of the values of all elements at that node; the two are adjoint: sum u.assembleNodeVector(f) = sum asElementVector(u).f, so totals are conserved.", "quantifier": "all conn, data", "why_tests_cant": "all inputs", "anchors": ["include/GooseFEM/Element.h: asElementVector, assembleNodeVector"]}
{"id": "C66", "title": "isSequential", "statement": "Element::isSequential(dofs) returns true if and only if every number 0 .. max(dofs) occurs in dofs.", "quantifier": "all dofs", "why_tests_cant": "all inputs", "anchors": ["include/GooseFEM/Element.h: isSequential"]}
{"id": "C67", "title": "isDiagonal", "statement": "Element::isDiagonal(elemmat) returns true if and only if every off-diagonal entry of every element matrix is at most 2^-52 (the machine epsilon of double) in magnitude.", "quantifier": "all matrices", "why_tests_cant": "all inputs", "anchors": ["include/GooseFEM/Element.h: isDiagonal"]}
{"id": "C68", "title": "StopList: every history", "statement": "After any sequence of roll_insert and reset the list holds the last n residuals since the last reset, in order (padded with infinity in front). all_less(tol) is true exactly if all these residuals are below the tolerance, descending() exactly if no residual is larger than an earlier one.", "quantifier": "every history, every residual (also infinite or NaN) and tolerance", "why_tests_cant": "unbounded histories", "anchors": ["include/GooseFEM/Iterate.h: StopList"]}
{"id": "C69", "title": "AsTensor / as3d", "statement": "AsTensor<rank>(arg, shape or n) has the shape of arg followed by the given one (n repeated rank times) and repeats every entry of arg over all trailing indices, for arrays of every rank; as3d(data) pads arrays of vectors of one to three components with zero columns to three.", "quantifier": "all arrays", "why_tests_cant": "all inputs", "anchors": ["include/GooseFEM/Allocate.h: AsTensor, as3d"]}
{"id": "C70", "title": "defaultElementType", "statement": "Mesh::defaultElementType(coor, conn) returns Tri3 exactly for 2 columns of coordinates and 3 nodes per element, Quad4 for 2 and 4, Hex8 for 3 and 8, and throws for every other pair.", "quantifier": "all coor/conn shapes", "why_tests_cant": "all inputs", "anchors": ["include/GooseFEM/Mesh.h: defaultElementType"]}
{"id": "C71", "title": "is_unique", "statement": "detail::is_unique(arg) returns true if and only if no value occurs twice in arg, for arrays of every size, the empty one included.", "quantifier": "all arrays", "why_tests_cant": "all inputs", "anchors": ["include/GooseFEM/assertions.h: is_unique"]}
{"id": "C72", "title": "version string", "statement": "unquote (used for version() and version_dependencies()) never accesses the string out of bounds, and returns all its characters except the quotes, in order, for every string.", "quantifier": "all strings", "why_tests_cant": "all inputs", "anchors": ["include/GooseFEM/version.h: unquote"]}
{"id": "C73", "title": "update_x: every history of a quadrature object", "statement": "After any sequence of update_x calls every quadrature object (Quad4, Quad4Planar, Quad4Axisymmetric, Hex8) holds exactly the shape functions, gradients and volumes that the constructor gives for the current coordinates; results do not depend on the order in which elements are processed or on the contents of the output before the call.", "quantifier": "every history of update_x, every loop schedule", "why_tests_cant": "unbounded histories and schedules", "anchors": ["include/GooseFEM/Element.h: update_x", "include/GooseFEM/ElementQuad4.h: compute_dN_impl"]}
{"id": "C74", "title": "Hex8: volumes and weak forms", "statement": "dV of the Gauss quadrature sums to the volume; internal forces do the work of the stress on the gradient and are self-equilibrated; the stiffness is the linearisation of the internal force, symmetric for major symmetry, translations are in its kernel; the mass matrix is symmetric, uncoupled, sums to the mass; the nodal forces of a body force do its work and add up to it.", "quantifier": "all geometries and fields", "why_tests_cant": "all inputs", "anchors": ["include/GooseFEM/ElementHex8.h: Quadrature"]}
{"id": "C75", "title": "elemmap2nodemap with an element type, and nodal fields on rolled meshes", "statement": "elemmap2nodemap (with the element type given or guessed) returns for every node the node that takes its place: if the element map is induced by a map of the nodes, it returns that map; in general a node is mapped with the first local number it has in some element; nodes outside the connectivity get the number of nodes. Applied to roll(n) of a Quad4::FineLayer mesh it maps every node to a node at the same height, n coarsest blocks to the left modulo the width; so taking the values of a periodic nodal field through it translates the field by n blocks, whatever the field.", "quantifier": "all Quad4 meshes and element maps; all FineLayer meshes, all n and all periodic nodal fields", "why_tests_cant": "the tests roll a 3 x 3 mesh without refinement, where all blocks are equal", "anchors": ["include/GooseFEM/Mesh.h: elemmap2nodemap", "include/GooseFEM/MeshQuad4.h: FineLayer::roll"]}
{"id": "C76", "title": "Quad4.FineLayer: elementgrid_leftright", "statement": "For an element e of the middle layer elementgrid_leftright(e,left,right) returns e with its `left` neighbours to the left and its `right` neighbours to the right in this layer, periodically and in order.", "quantifier": "all meshes, elements of the middle layer, left, right", "why_tests_cant": "all meshes and elements", "anchors": ["include/GooseFEM/MeshQuad4.h: FineLayer::elementgrid_leftright"]}
{"id": "C77", "title": "Quad4.FineLayer: elementgrid_around_ravel", "statement": "For an element e of the middle layer elementgrid_around_ravel(e,size) returns, without duplicates, the elements in a box of whole layers and blocks around e, periodically, that contains the square box of edge size (2 size + 1) h around e; the full mesh if 2 size is at least its height.", "quantifier": "all meshes, elements of the middle layer, sizes", "why_tests_cant": "all meshes and elements", "anchors": ["include/GooseFEM/MeshQuad4.h: FineLayer::elementgrid_around_ravel"]}
{"id": "C78", "title": "Hex8.FineLayer: periodicity", "statement": "nodesPeriodic() ties every node on the right, top or back (each exactly once) to a node, untied itself, at the equivalent position; dofsPeriodic() gives two nodes the same degrees of freedom if and only if their positions are equivalent modulo the size of the mesh, and numbers these contiguously.", "quantifier": "all nelx, nely, nelz >= 1, nfine, h > 0", "why_tests_cant": "all meshes", "anchors": ["include/GooseFEM/MeshHex8.h: FineLayer", "include/GooseFEM/Mesh.h: RegularBase3d::nodesPeriodic_impl, RegularBase::dofsPeriodic"]}
{"id": "C79", "title": "Accessors are named after the nodes they return", "statement": "Whatever the order of the words, nodes<Side><Side>Edge() lists every node on both named sides once, nodes<Side><Side>OpenEdge() those strictly inside the edge, nodes<Side><Side>[<Side>]Corner() the node on all named sides, nodesOrigin() the node at the origin; all orders exist.", "quantifier": "all meshes of Quad4/Tri3/Hex8 Regular and FineLayer, all 24 edges, 24 open edges, 48 + 8 corners", "why_tests_cant": "unbounded meshes; a swapped alias only shows on meshes that are not symmetric", "anchors": ["include/GooseFEM/Mesh.h: RegularBase2d, RegularBase3d", "include/GooseFEM/MeshHex8.h", "include/GooseFEM/MeshQuad4.h", "include/GooseFEM/MeshTri3.h"]}
{"id": "C80", "title": "Assembled stiffness = stiffness of the assembled internal force", "statement": "For every mesh, DOF numbering (also with shared DOFs), element class (Quad4, Quad4Planar, Quad4Axisymmetric, Hex8), geometry, quadrature and stiffness tensor C per integration point: assembling Int_gradN_dot_tensor4_dot_gradNT_dV(C) in a Matrix and multiplying with a nodal displacement u gives exactly the result of AsElement -> GradN_vector -> C : grad(u) -> Int_gradN_dot_tensor2_dV -> AssembleNode (with SymGradN_vector if C has minor symmetry). The matrix is symmetric if C has major symmetry, its quadratic form is the integral of grad(u) : C : grad(u), and not negative if C and the volumes are not.", "quantifier": "all meshes, DOF numberings, element classes, geometries, quadratures, C, u, loop schedules", "why_tests_cant": "continuum of inputs, unbounded meshes", "anchors": ["include/GooseFEM/Element.h: QuadratureBaseCartesian", "include/GooseFEM/Vector.h", "include/GooseFEM/Matrix.h: Matrix", "docs/examples/statics/fixed-displacement_elastic.py"]}
{"id": "C81", "title": "The assembled tangent is the derivative of the internal force", "statement": "For any material law that gives the stress at an integration point as a differentiable function of the strain at that point, with derivative C, the matrix assembled from C is the derivative of the assembled internal force in every direction.", "quantifier": "all meshes, element classes, geometries, material laws, displacements and directions", "why_tests_cant": "a limit statement over a continuum", "anchors": ["include/GooseFEM/Element.h: Int_gradN_dot_tensor4_dot_gradNT_dV", "include/GooseFEM/Matrix.h", "docs/examples/statics/periodic_elastoplastic.py"]}
{"id": "C82", "title": "The statics program reaches equilibrium", "statement": "The documented statics program (strain, stress, internal force, stiffness, MatrixPartitionedSolver, update, reaction forces by copy_p) returns, for a linear material and a solver that solves the system of the unknowns, displacements that are equal to the prescribed ones on prescribed DOFs, an internal force equal to the applied force on the unknown DOFs, reaction forces on the prescribed ones and a residual that is exactly zero; whatever was done with matrix and solver before.", "quantifier": "all meshes, element classes, boundary conditions, loads, stiffness tensors, histories of matrix and solver", "why_tests_cant": "all inputs and histories", "anchors": ["docs/examples/statics/fixed-displacement_elastic.py", "include/GooseFEM/MatrixPartitioned.h", "include/GooseFEM/VectorPartitioned.h"]}
{"id": "C83", "title": "Newton iterations", "statement": "The documented Newton iteration, repeated any number of times with changing loads and prescribed increments, gives equilibrium with the last load after every iteration for a linear material, and the prescribed displacements are the sum of the prescribed increments; the factorization that is cached by the solver is never stale.", "quantifier": "all meshes, element classes, sequences of loads and increments of any length", "why_tests_cant": "unbounded histories", "anchors": ["docs/examples/statics/periodic_elastoplastic.py", "include/GooseFEM/MatrixPartitioned.h"]}
{"id": "C84", "title": "Virtual work and balance of the assembled internal force", "statement": "For every stress field the work of the assembled internal force on a displacement of the DOFs equals the integral of stress : grad(displacement). It is zero for translations (Quad4, Quad4Planar, Hex8), and for linearised rotations of plane bodies if the stress is symmetric.", "quantifier": "all meshes, DOF numberings, geometries, quadratures, stresses, virtual displacements", "why_tests_cant": "continuum of inputs", "anchors": ["include/GooseFEM/Element.h: Int_gradN_dot_tensor2_dV", "include/GooseFEM/Vector.h: assembleDofs"]}
{"id": "C85", "title": "Explicit dynamics: momentum and reversibility", "statement": "The documented velocity Verlet program with a MatrixDiagonal mass changes the total momentum in every number of steps exactly by the impulse of the external force, for any material law (also one with memory); for a material without memory it is reversible: after reversing the velocity the same number of steps gives back the initial state.", "quantifier": "all meshes, masses, materials, time steps, numbers of steps", "why_tests_cant": "unbounded runs", "anchors": ["docs/examples/dynamics/Elastic-VelocityVerlet/main.cpp", "include/GooseFEM/MatrixDiagonal.h", "include/GooseFEM/Vector.h"]}
{"id": "C86", "title": "Patch test", "statement": "For Quad4 and Quad4Planar with any of their quadrature rules (or any rule that integrates the local coordinates), on a mesh of arbitrarily distorted elements with a non-zero Jacobian: the assembled force of a uniform stress is zero at every node around which the elements close and whose DOFs are its own (in a regular mesh: every node that is not on the boundary); hence so is the internal force of an affine displacement of a homogeneous body of any material; and the documented statics program, given affine displacements on the other nodes, returns exactly the affine displacement everywhere.", "quantifier": "all meshes, distorted geometries, stresses, affine fields, homogeneous materials", "why_tests_cant": "continuum of geometries, unbounded meshes", "anchors": ["include/GooseFEM/ElementQuad4.h", "include/GooseFEM/ElementQuad4Planar.h", "include/GooseFEM/Vector.h: assembleNode", "docs/examples/statics/fixed-displacement_elastic.py"]}
{"id": "C87", "title": "Zero-energy displacements and uniqueness", "statement": "With Gauss or nodal integration the strain of a Quad4 or Quad4Planar element is zero at all integration points if and only if its nodes move as a rigid body; with the mid-point rule every hourglass displacement has no strain in any element. If no non-zero displacement of the unknown DOFs has zero energy, then displacement and internal force are determined by the boundary conditions: two runs of the statics program give the same, whatever solver, loop schedule and history (every element class). This is so if the prescribed DOFs hold the body, for example a regular mesh held by rollers along the bottom edge and at one corner.", "quantifier": "all geometries with a non-zero Jacobian, displacements, meshes, boundary conditions, solvers, schedules and histories", "why_tests_cant": "continuum of inputs", "anchors": ["include/GooseFEM/ElementQuad4.h: Quadrature::Gauss, Nodal, MidPoint", "include/GooseFEM/ElementQuad4Planar.h", "include/GooseFEM/MatrixPartitioned.h"]}
{"id": "C88", "title": "A periodic cell driven by control nodes stays periodic and ends in equilibrium", "statement": "The program of docs/examples/statics/periodic_elastoplastic.py: Tyings::Control adds ndim control nodes, Tyings::Periodic ties the node pairs of the mesh, a VectorPartitionedTyings and a MatrixPartitionedTyings are made, and Newton iterations (strain, stress, internal force, stiffness, assemble, solve, update) are run. Set-up succeeds for every mesh whose nodes have their own DOFs, for every well-formed list of ties, and for every list of fixed nodes that are independent; it numbers every DOF of every node once: unknown, then prescribed, then dependent. Whatever was done with the matrix before, after any number of iterations (any material law, tangent, memory and loop orders) every tied pair is displaced as u_b = u_a + F(x_b - x_a) with F the displacements of the control nodes, and prescribed displacements have received exactly the prescribed updates. If the last iteration has a linear material with its own stiffness, the virtual work of the stress equals that of the external force for every virtual displacement that respects the ties. The two lists of forces that the program compares are equal exactly if internal and external forces do the same work on all these virtual displacements. The regular Quad4, Tri3 and Hex8 meshes and Quad4::FineLayer with nodesPeriodic and nodesOrigin are valid input.", "quantifier": "every mesh, element class, list of ties and fixed nodes, every history of the matrix, every sequence of iterations with any law, tangent, external force and update, every schedule of the parallel loops", "why_tests_cant": "the tests run a few fixed meshes; invariance of the ties over any number of iterations and equilibrium against all virtual displacements are universally quantified", "anchors": ["docs/examples/statics/periodic_elastoplastic.py", "include/GooseFEM/TyingsPeriodic.h: Control, Periodic", "include/GooseFEM/VectorPartitionedTyings.h", "include/GooseFEM/MatrixPartitionedTyings.h: solve"]}
{"id": "C89", "title": "Forces on the control nodes are the stress integrated over the periodic cell (Hill-Mandel)", "statement": "In the program of C88 with one fixed node: assemble the nodal force of any stress and take the forces on the independent DOFs. If those on the unknown DOFs are zero, then component k of the force on control node j is the integral over the cell of stress component (k, j), the force on the fixed node is zero, and the integral of stress : gradient of any periodic displacement is the integrated stress : displacement gradient prescribed by its control nodes. In particular this holds for the final displacement of a run without external forces whose last iteration has a linear material. Quad4 and Quad4Planar elements with non-zero Jacobian, Hex8 elements with edges along the axes.", "quantifier": "every mesh and list of ties, every stress field, every periodic displacement, every history and schedule", "why_tests_cant": "an identity between sums over any number of elements and integration points, for all fields", "anchors": ["docs/examples/statics/periodic_elastoplastic.py", "include/GooseFEM/VectorPartitionedTyings.h: AsDofs_i", "include/GooseFEM/Vector.h: AssembleNode", "include/GooseFEM/ElementQuad4.h"]}
{"id": "C90", "title": "The systems handed to the solver are symmetric positive definite, and solvable by the default kind of solver", "statement": "For a stiffness with major symmetry and non-negative energy and non-negative integration volumes: the matrix that MatrixPartitioned's solver factorises is symmetric positive definite if no displacement of the unknown DOFs has zero energy, and so is the matrix that MatrixPartitionedTyings' solver factorises if no virtual (periodic) displacement has. Elimination without pivoting, the method of the default LDL^T solver, solves all such systems. Hence the documented statics program returns, for every solver of that kind, the one and only displacement with the prescribed values that is in equilibrium; and the documented periodic program on every regular Quad4 mesh with Gauss integration and an elastic material returns a periodic displacement with the prescribed displacement gradient, in equilibrium, with the integrated stress on the control nodes - without any assumption on solvability. A periodic cell has no mechanism if its elements are linked by edges, one node is fixed, and two nodes at different positions are tied.", "quantifier": "every mesh, element class, material, partition, list of ties; every symmetric positive definite matrix of any size", "why_tests_cant": "tests solve a few systems; definiteness and solvability for every mesh size and every elastic material need a proof", "anchors": ["include/GooseFEM/MatrixPartitioned.h: MatrixPartitionedSolver", "include/GooseFEM/MatrixPartitionedTyings.h: MatrixPartitionedTyingsSolver", "include/GooseFEM/Matrix.h: template argument SimplicialLDLT", "docs/examples/statics"]}
{"id": "C91", "title": "The planar meshes are conforming and in one piece", "statement": "In conn() of every Quad4::Regular, Quad4::FineLayer and Tri3::Regular mesh no side (pair of consecutive nodes of an element, in the order of the element) occurs twice in the same direction; every side is either the side of exactly one other element in the opposite direction or a step of the outline formed by nodesBottomEdge, nodesRightEdge, nodesTopEdge and nodesLeftEdge, and never both; and every step of that outline is a side of an element. So there are no hanging nodes, also not between refinement layers. Hence the elements close up around every node that is in none of the boundary sets, and every element can be reached from every other by crossing common sides.", "quantifier": "every number of elements, size and nfine with which the mesh can be made", "why_tests_cant": "unbounded family of meshes; a global combinatorial property of conn() and the boundary sets", "anchors": ["include/GooseFEM/MeshQuad4.h: Regular, FineLayer", "include/GooseFEM/MeshTri3.h: Regular"]}
{"id": "C92", "title": "Discrete divergence theorem and the mean gradient of a periodic cell", "statement": "For Quad4 and Quad4Planar with Gauss or nodal integration on a conforming mesh of possibly distorted elements (non-zero Jacobian): the integral over the body (sum over elements and integration points, dV as weight) of GradN_vector of any nodal displacement equals the thickness times the sum over the outline of the mesh of the mean displacement of the step times its outward normal; so it depends only on the displacement of the boundary. On every Quad4::Regular and Quad4::FineLayer mesh the volume is thickness times the area of the rectangle, and the mean gradient of a displacement that is periodic over the node pairs of nodesPeriodic() up to an affine jump F is exactly F.", "quantifier": "every mesh, geometry, displacement field, rule with 4 points, thickness", "why_tests_cant": "an identity between sums over any number of elements for all fields", "anchors": ["include/GooseFEM/ElementQuad4.h", "include/GooseFEM/ElementQuad4Planar.h", "include/GooseFEM/MeshQuad4.h: nodesPeriodic"]}
{"id": "C93", "title": "The documented programs on every Quad4::Regular and Quad4::FineLayer mesh", "statement": "On every such mesh, with Quad4 or Quad4Planar, Gauss or nodal integration, a strictly elastic (possibly inhomogeneous) material and any solver for symmetric positive definite systems: (a) the periodic program of C88 returns; the displacement is periodic, unknown forces vanish, the mean displacement gradient is the prescribed one, the control forces are the integrated stress, and their work is the integrated stress : gradient; (b) without periodicity it is enough to prescribe both DOFs of one node and the DOF of another node perpendicular to a direction in which the two are apart: then the statics program returns the one displacement that has the prescribed values and is in equilibrium, for all loads; (c) with an affine displacement on the boundary sets and a homogeneous material it returns this affine displacement in all nodes.", "quantifier": "every mesh size, refinement, stiffness field, thickness, load, solver, schedule of the loops", "why_tests_cant": "unbounded meshes and a continuum of materials and loads; the tests compute single cases", "anchors": ["docs/examples/statics", "include/GooseFEM/MeshQuad4.h: FineLayer, Regular", "include/GooseFEM/ElementQuad4.h", "include/GooseFEM/ElementQuad4Planar.h", "include/GooseFEM/MatrixPartitioned.h", "include/GooseFEM/MatrixPartitionedTyings.h"]}
{"id": "C94", "title": "With assertions enabled, no array can make a Vector access memory out of bounds", "statement": "Compiled with GOOSEFEM_ENABLE_ASSERT, the constructor of Vector accepts exactly the connectivity and DOF arrays that belong together (rank 2, node numbers of existing nodes, not more DOFs than nodes times dimensions) and throws on all others. Every conversion (AsDofs, AsNode, AsElement, AssembleDofs, AssembleNode, Copy and their in-place forms) called with an array of any rank and shape and an output array of any shape either returns an array of the documented shape, the same as without assertions, or throws; it returns exactly for the documented shapes. Without assertions an array of a rank that the conversion does not take still throws. allocate_*(val) gives arrays of these shapes filled with val.", "quantifier": "every connectivity, DOF array, array of any rank, shape and entries, output shape, conversion, and order of the parallel iterations", "why_tests_cant": "tests call the conversions with a few well-shaped arrays; absence of out-of-bounds accesses is about every shape", "anchors": ["include/GooseFEM/Vector.h: Vector, asDofs, asNode, asElement, assembleDofs, assembleNode, copy, allocate_*, shape_*", "include/GooseFEM/config.h: GOOSEFEM_ASSERT"]}
{"id": "C95", "title": "With assertions enabled, no array can make a VectorPartitioned access memory out of bounds", "statement": "Compiled with GOOSEFEM_ENABLE_ASSERT, the constructor of VectorPartitioned accepts exactly a valid mesh (C94) with a rank-1 array of different, existing DOF numbers, and throws otherwise. copy_u, copy_p, DofsFromParitioned, NodeFromPartitioned, ElementFromPartitioned, AsDofs_u and AsDofs_p called with arrays of any shape return exactly for the documented shapes, with an array of the documented length and entries equal to those without assertions, and throw otherwise.", "quantifier": "every mesh, array of prescribed DOFs, array of any rank, shape and entries, and order of the parallel iterations", "why_tests_cant": "tests use a few well-shaped arrays; the claim is about every shape", "anchors": ["include/GooseFEM/VectorPartitioned.h: VectorPartitioned, copy_u, copy_p, dofsFromParitioned, nodeFromPartitioned, elementFromPartitioned, asDofs_u, asDofs_p", "include/GooseFEM/config.h: GOOSEFEM_ASSERT"]}
{"id": "C96", "title": "Energy in explicit dynamics", "statement": "In the documented programs for explicit dynamics with a linear elastic material, on any mesh, element class and positive diagonal mass: the two programs (Verlet; velocity Verlet with its repeated solves) return the same states and the same arrays Ekin and Epot. Ekin + Epot - dt^2/8 a.M.a changes over any number of increments by exactly the work of the constant external force. Without external force and with a stable time step (dt^2 w.K.w <= 4 theta w.M.w, which follows if it holds for every element) the stored energies are non-negative and in all increments k, l: Ekin(k) + (1-theta) Epot(k) <= Ekin(l) + Epot(l), for any initial displacement (also non-periodic with periodic DOFs), velocity and acceleration; from rest, Ekin(k) + (1-theta) Epot(k) <= Epot(0) <= Ekin(k) + Epot(k). So the energy never drifts, in any number of increments.", "quantifier": "every mesh, element class, density, stiffness field, initial state, stable time step, number of increments, schedule of the loops", "why_tests_cant": "a run shows no drift for the steps that it made; the claim is about every number of increments", "anchors": ["docs/examples/dynamics/Elastic-Verlet/main.cpp", "docs/examples/dynamics/Elastic-VelocityVerlet/main.cpp", "include/GooseFEM/MatrixDiagonal.h: assemble, data, solve", "include/GooseFEM/Vector.h: AsElement, assembleNode, AsDofs", "include/GooseFEM/Element.h: symGradN_vector, int_gradN_dot_tensor2_dV"]}
{"id": "C97", "title": "The documented dynamics programs on every regular mesh", "statement": "The documented programs for explicit dynamics as a whole (mesh, periodic DOFs, two quadratures, mass matrix by nodal integration, affine displacement to start with, increments, energies), on every Quad4::Regular mesh, for every density >= rho0 and every linear elastic material with stiffness at most L: if dt^2 L <= theta rho0 h^2 with theta <= 1, the program runs for any number of increments without any invalid access, Epot(0) is the energy of the homogeneous strain, and Ekin(k) + (1-theta) Epot(k) <= Epot(0) <= Ekin(k) + Epot(k) in every increment k. For the parameters in the documentation theta = 1/50.", "quantifier": "every mesh size, element size, stiffness and density field, displacement gradient, number of increments, schedule of the loops", "why_tests_cant": "unbounded meshes and runs; a continuum of materials", "anchors": ["docs/examples/dynamics/Elastic-Verlet/main.cpp", "docs/examples/dynamics/Elastic-VelocityVerlet/main.cpp", "include/GooseFEM/MeshQuad4.h: Regular", "include/GooseFEM/Mesh.h: dofsPeriodic", "include/GooseFEM/ElementQuad4.h: Quadrature, Nodal, Gauss", "include/GooseFEM/MatrixDiagonal.h"]}
{"id": "C98", "title": "With assertions enabled, no call can make a Matrix or its solver access memory out of bounds", "statement": "Compiled with GOOSEFEM_ENABLE_ASSERT, the constructor of Matrix accepts exactly the meshes that Vector accepts (C94). In whatever state a program of earlier calls (also failed ones) has left the matrix and its solver, assemble, set, add, todense, dot and solve called with arrays of any rank and shape and output arrays of any shape return exactly if the arrays have the documented shapes (and rows and columns given to set and add are existing DOFs), with an output of the documented shape; otherwise they throw, before anything is changed. On such calls the build without assertions leaves the same matrix and solver and returns the same. The methods that return by value need only the shape of their argument to be right.", "quantifier": "every mesh, history of calls, array of any rank, shape and entries, linear solver, order of the parallel iterations", "why_tests_cant": "tests use a few well-shaped arrays; the claim is about every shape and every history", "anchors": ["include/GooseFEM/Matrix.h: Matrix, MatrixSolver, assemble, set, add, todense, dot, solve", "include/GooseFEM/config.h: GOOSEFEM_ASSERT"]}
{"id": "C99", "title": "With assertions enabled, no call can make a MatrixPartitioned or its solver access memory out of bounds; DOF numbers with a hole", "statement": "The same as C98 for MatrixPartitioned and its solver (assemble, set, add, todense, dot, reaction, reaction_p, solve, solve_u) on a mesh whose DOF numbers have no hole, with different existing prescribed DOFs. The assertions do not catch holes: if some number below ndof is neither the number of a DOF nor prescribed, the constructor reads uninitialised memory, with and without assertions.", "quantifier": "every mesh, array of prescribed DOFs, history of calls, array of any rank, shape and entries, linear solver, order of the parallel iterations", "why_tests_cant": "tests use a few well-shaped arrays; the claim is about every shape and every history", "anchors": ["include/GooseFEM/MatrixPartitioned.h: MatrixPartitioned, MatrixPartitionedSolver", "include/GooseFEM/Matrix.h: MatrixPartitionedBase, MatrixSolverPartitionedBase", "include/GooseFEM/Mesh.h: Reorder", "include/GooseFEM/config.h: GOOSEFEM_ASSERT"]}
{"id": "C100", "title": "The quadrature classes in memory: no access out of bounds, row by row the right entries", "statement": "For every object of the classes Quad4::Quadrature, QuadraturePlanar, QuadratureAxisymmetric and Hex8::Quadrature that a constructor and any number of calls of update_x leave, every method (InterpQuad_vector, GradN_vector, GradN_vector_T, SymGradN_vector, Int_N_vector_dV, Int_N_scalar_NT_dV, Int_gradN_dot_tensor2_dV, Int_gradN_dot_tensor4_dot_gradNT_dV), in place or by value, called with arrays of the documented shapes accesses no memory outside of its arrays, in any order of the elements and whatever the memory of the result contained, and each entry of the result, at its row-major place, is the one of the mathematical model (so that C55-C64 hold for it). With assertions enabled a call with arrays of any other shape throws; InterpQuad_vector and Int_N_vector_dV need an argument of rank three or more for that. Without assertions Quad4's InterpQuad_vector of a field with one component is out of bounds.", "quantifier": "every number of elements, integration rule, coordinates, history of updates, argument, schedule, contents of uninitialised memory", "why_tests_cant": "tests run a few meshes; an overrun of an array often goes unnoticed", "anchors": ["include/GooseFEM/Element.h: QuadratureBaseCartesian", "include/GooseFEM/ElementQuad4.h: Quadrature", "include/GooseFEM/ElementQuad4Planar.h: QuadraturePlanar", "include/GooseFEM/ElementQuad4Axisymmetric.h: QuadratureAxisymmetric", "include/GooseFEM/ElementHex8.h: Quadrature"]}
{"id": "C101", "title": "Constructors and update_x of the quadrature classes check what they read", "statement": "Constructor and update_x of the quadrature classes succeed, without access out of bounds, for coordinates [nelem, nne, ndim], points [nip, ndim] and weights [nip] (update_x: the shape of the current coordinates), with and without assertions. With assertions enabled they succeed only for those, and throw for all others.", "quantifier": "every array of rank 3, 2, 1 and any extents, every class, schedule and contents of uninitialised memory", "why_tests_cant": "tests use a few well-shaped arrays; the claim is about every shape", "anchors": ["include/GooseFEM/Element.h: update_x", "include/GooseFEM/ElementQuad4.h: Quadrature", "include/GooseFEM/ElementQuad4Planar.h: QuadraturePlanar", "include/GooseFEM/ElementQuad4Axisymmetric.h: QuadratureAxisymmetric", "include/GooseFEM/ElementHex8.h: Quadrature"]}
{"id": "C102", "title": "A strip that is periodic in one direction, held at the bottom and sheared at the top", "statement": "The documented program for a partially periodic strip, on every Quad4::Regular and Quad4::FineLayer mesh: after dofs[right open edge] = dofs[left open edge] and renumbering, two nodes share their DOFs exactly if they are the same or on opposite sides at the same height (not at the bottom or the top), and the DOF numbers have no holes; the prescribed DOFs are exactly those of the nodes at the bottom and the top. For every (inhomogeneous) elastic material, every shear and every solver for symmetric positive definite systems the program returns; the displacement is the one that is periodic, zero at the bottom, (gamma, 0) at the top and in equilibrium at all other nodes; the residual that the program asserts to be small is zero; the forces at the top sum to the total of the stress on horizontal planes divided by the height, those at the bottom to the opposite. If the material is homogeneous the displacement is simple shear: proportional to the height.", "quantifier": "every mesh size, refinement, stiffness field, thickness, shear, solver, schedule of the loops", "why_tests_cant": "unbounded meshes and a continuum of materials; the example computes one case and checks one residual", "anchors": ["docs/examples/statics/partial-periodic_elastic.py", "include/GooseFEM/MeshQuad4.h: FineLayer, Regular", "include/GooseFEM/Mesh.h: renumber", "include/GooseFEM/MatrixPartitioned.h", "include/GooseFEM/VectorPartitioned.h"]}
{"id": "C103", "title": "Solving for the unknown DOFs by hand", "statement": "The documented program with manual partitioning (AsDofs_u of the residual, Solve_u with the prescribed values u_p in the order of iip, u[iiu] = u_u, u[iip] = u_p, AsNode) gives, for every mesh, element class, (inhomogeneous) linear material, external force, values u_p and content of the uninitialised array u, exactly the result of the program that solves with nodal vectors, for every nodal displacement that has these values at the prescribed DOFs: each prescribed DOF iip[k] gets u_p[k], the unknown DOFs are in equilibrium with the external force, and the residual is zero.", "quantifier": "every mesh, element class, material, load, prescribed set, uninitialised memory, previous use of the matrix and the solver, schedule of the loops", "why_tests_cant": "the equality of the two programs is over all inputs and over the values of uninitialised memory", "anchors": ["docs/examples/statics/fixed-displacement_elastic_manual-partition.py", "docs/examples/statics/fixed-displacement_elastic.py", "include/GooseFEM/MatrixPartitioned.h: Solve_u", "include/GooseFEM/VectorPartitioned.h: AsDofs_u, iiu, iip"]}
{"id": "C104", "title": "The documented programs in three dimensions", "statement": "On every mesh of Mesh::Hex8::Regular (any number of elements in each direction, any element size), with a Hex8 quadrature object (either rule of eight points) and any material without zero-energy strains: the stiffness is singular exactly if the prescribed and shared DOFs allow a rigid motion of the whole body, and three held nodes that are not on one line exclude that; on a body that is held, the statics program returns the one solution, for every load and any solver for symmetric positive definite systems; if the nodes of the six faces get an affine displacement, all nodes get it; the integral of the gradient depends only on the displacement of the nodes of the faces; the periodic program, with one corner fixed, returns a periodic displacement in equilibrium, of which the mean gradient is the prescribed one, with forces on the control nodes equal to the integral of the stress, and their work equal to that of the stress.", "quantifier": "every mesh size, element size, rule, material stiffness, load, prescribed gradient, solver, schedule of the loops", "why_tests_cant": "holds over all mesh sizes and all displacements; in three dimensions a test can only check a few small meshes with a tolerance", "anchors": ["docs/examples/statics/fixed-displacement_elastic.py", "docs/examples/statics/periodic_elastoplastic.py", "include/GooseFEM/MeshHex8.h: Regular", "include/GooseFEM/ElementHex8.h: Quadrature, Gauss, Nodal", "include/GooseFEM/TyingsPeriodic.h: Periodic, Control", "include/GooseFEM/MatrixPartitioned.h, MatrixPartitionedTyings.h"]}
{"id": "C105", "title": "Moving the nodes of an element object: volumes, gradients and forces at large deformations", "statement": "Two objects of one class and rule, one on coordinates x and one that got x + u by update_x (or by its constructor): dV on x + u is det(F) times dV on x, F = I + (grad u)^T with the gradient that the first object computes (all classes; Hex8 if the Jacobian of x is diagonal, as for a brick). For the classes Quad4::Quadrature, QuadraturePlanar and QuadratureAxisymmetric, where det(F) is not zero: the two gradients of any nodal vector are related by the chain rule; the nodal forces of a stress sigma on x + u are those of the nominal stress P on x with F . P = det(F) sigma, which always exists; the virtual power of both is the same. For Hex8 the forces are not the same (refuted: the gradient on x + u is wrong if it is not a brick, see C64).", "quantifier": "every number of elements, integration rule, coordinates, displacement, stress field, class, schedule and content of uninitialised memory", "why_tests_cant": "holds for a continuum of coordinates, displacements and stresses; rational identities that a test can only sample with a tolerance", "anchors": ["include/GooseFEM/Element.h: update_x", "include/GooseFEM/ElementQuad4.h: Quadrature", "include/GooseFEM/ElementQuad4Planar.h: QuadraturePlanar", "include/GooseFEM/ElementQuad4Axisymmetric.h: QuadratureAxisymmetric", "include/GooseFEM/ElementHex8.h: Quadrature"]}
{"id": "C106", "title": "A periodic cell at large deformations", "statement": "The documented program, for every periodic cell of quadrilaterals, any material and tangent, and any number of iterations whose linear systems the solver solves: it returns, the displacement is periodic, where it is prescribed it is the sum of the prescribed updates, and in every iteration the element object has exactly the coordinates coor + disp. When the forces on the unknown DOFs vanish, the force on the control nodes is the integral, over the undeformed cell, of the nominal stress that belongs to the Cauchy stress in the deformed cell, and for every periodic velocity the power of the Cauchy stress over the deformed cell is the power of that macroscopic stress (Hill-Mandel).", "quantifier": "every mesh, periodic pairs, material, number of iterations, prescribed gradient, schedule of the loops, previous use of the matrix and the solver", "why_tests_cant": "unbounded meshes, iterations and materials; the example runs one mesh and one shear history", "anchors": ["docs/examples/statics/periodic_elastoplastic_finite-strain.py", "include/GooseFEM/Element.h: update_x", "include/GooseFEM/ElementQuad4Planar.h", "include/GooseFEM/TyingsPeriodic.h: Periodic, Control", "include/GooseFEM/MatrixPartitionedTyings.h", "include/GooseFEM/VectorPartitionedTyings.h"]}
{"id": "C107", "title": "The finite-strain program gives the material the deformation gradient", "statement": "What the documented finite-strain program passes to the material as deformation gradient F is that of the displacement: volumes of the updated element object are det(F) times those of the reference object.", "quantifier": "every element class, mesh and displacement", "why_tests_cant": "holds for a continuum of displacements; for the small simple shear of the example the difference is below what is looked at", "anchors": ["docs/examples/statics/periodic_elastoplastic_finite-strain.py", "include/GooseFEM/Element.h: symGradN_vector, update_x"]}
{"id": "C108", "title": "The loops of the periodic programs end in equilibrium or with the exception", "statement": "For any material and any list of load increments, the documented small-strain and finite-strain periodic programs make no invalid access and either finish or raise the exception for too many iterations, whatever vectors the linear solver returns. If a program finishes, every increment ended by convergence (never because the range of iterations was exhausted): the displacement is periodic, the first control node moved by exactly the prescribed amount and all else that is prescribed is kept, the material history was advanced once and holds the strain of the final displacement, and its stress is in equilibrium with the external force up to the tolerance relative to the force. The exception is raised only in an increment in which 21 iterations have a residual that is not below the tolerance, and always if no residual ever is below it. With a linear material and a linear solver that solves, the exception is never raised.", "quantifier": "every periodic cell, element class, material (any functions), external force, list of increments, tolerance, linear solver, prior use of the matrix and solver, and order of the parallel loops", "why_tests_cant": "the iteration may stop anywhere between 1 and 21 steps in every one of any number of increments, with an arbitrary material; a test sees one material and one load path", "anchors": ["docs/examples/statics/periodic_elastoplastic.py", "docs/examples/statics/periodic_elastoplastic_finite-strain.py", "include/GooseFEM/MatrixPartitionedTyings.h: MatrixPartitionedTyingsSolver", "include/GooseFEM/VectorPartitionedTyings.h: AsDofs_i"]}
{"id": "C109", "title": "The diagonal matrices, built with assertions, take exactly the documented arguments", "statement": "With GOOSEFEM_ENABLE_ASSERT, MatrixDiagonal and MatrixDiagonalPartitioned accept exactly the meshes (and lists of prescribed DOFs) whose node and DOF numbers exist, and, once assemble or set has given the matrix its value, every call succeeds exactly if its arrays have the documented shapes (and, for assemble, if the element matrices are diagonal up to 2^-52), with an output of the documented shape and the result of the build without assertions; every other call throws and leaves the matrix as it was. The assertions do not see that no value was given: then every reading call uses memory that was never written, in both builds. An off-diagonal entry above 2^-52 is rejected with the assertions and ignored without them.", "quantifier": "every mesh, every sequence of calls with arrays of every rank, shape and content, exceptions caught", "why_tests_cant": "there are infinitely many shapes and call sequences, and a test in one build does not see the other", "anchors": ["include/GooseFEM/MatrixDiagonal.h:MatrixDiagonal", "include/GooseFEM/MatrixDiagonalPartitioned.h:MatrixDiagonalPartitioned", "include/GooseFEM/Element.h:isDiagonal", "include/GooseFEM/config.h:GOOSEFEM_ASSERT"]}
{"id": "C110", "title": "Queries on stitched meshes: what is answered, what throws, and what goes wrong silently without assertions", "statement": "With GOOSEFEM_ENABLE_ASSERT, Stitch::push_back accepts exactly the meshes given as rank-2 arrays with the numbers of columns of the first one (a mesh that does not fit throws) and the object is then that of the build without assertions; for Vstack::push_back a bottom edge with another number of nodes than the top edge below it throws, and otherwise both builds give the same. After every such history, nodemap, elemmap, nodeset and elemset (of one mesh, or combined over all) answer exactly the queries with an existing mesh index, with numbers that exist in that mesh (which must have at least one node or element), and with one set per mesh; the answer is the same in both builds and is the set mapped entry by entry (combined node sets: sorted and without duplicates). Every other query throws. Without assertions a mesh or node that does not exist is an access out of bounds, but: element nelem_i + k of mesh i is silently taken for element k of mesh i + 1, missing sets count as empty, and ManualStitch takes every index above 1 for mesh b and returns numbers of mesh a unseen.", "quantifier": "every list of meshes (arrays of any rank and shape), every index and every set; both builds", "why_tests_cant": "histories, indices and sets are unbounded, and the silent cases give plausible numbers that a test on valid input never sees", "anchors": ["include/GooseFEM/Mesh.h:Stitch", "include/GooseFEM/Mesh.h:ManualStitch", "include/GooseFEM/Mesh.h:Vstack", "include/GooseFEM/Mesh.h:overlapping", "include/GooseFEM/config.h:GOOSEFEM_ASSERT"]}
{"id": "C111", "title": "The partition of the DOFs is reported the same by tyings, vector and matrix, in C++ and in Python", "statement": "For every set of periodic tyings and prescribed DOFs, Tyings.Periodic, VectorPartitionedTyings and MatrixPartitionedTyings built from the same Cdu, Cdp and Cdi report the same nnu, nnp, nni, nnd and the same iiu, iip, iii, iid, in C++ and in Python; the numbers are the lengths of the lists, which contain no duplicates and only DOFs of nodes; a DOF is in iid exactly if a tie makes it dependent, in iii exactly if not, in iip exactly if it was prescribed and in iiu otherwise.", "quantifier": "every valid mesh, tyings and prescribed DOFs; every state of the matrix", "why_tests_cant": "the lists depend on the renumbering of an unbounded set of DOFs, and the properties that are wrong return plausible numbers", "anchors": ["include/GooseFEM/TyingsPeriodic.h:Periodic", "include/GooseFEM/VectorPartitionedTyings.h:VectorPartitionedTyings", "include/GooseFEM/MatrixPartitionedTyings.h:MatrixPartitionedTyings", "include/GooseFEM/Matrix.h:MatrixPartitionedTyingsBase", "python/Matrix.hpp:register_Matrix_MatrixPartitionedTyingsBase", "python/MatrixPartitionedTyings.hpp", "python/VectorPartitionedTyings.hpp", "python/TyingsPeriodic.hpp"]}
{"id": "C112", "title": "Periodic tyings and vectors with tyings: invalid input throws when the library is compiled with its assertions", "statement": "With GOOSEFEM_ENABLE_ASSERT the constructor of Tyings::Periodic, VectorPartitionedTyings and its methods throw on every input that is not valid: coordinates, DOFs, control DOFs and tied node pairs of matching shapes, nodes that exist, control and prescribed DOFs that exist, no DOF prescribed twice or dependent twice, no DOF that depends on, or is a control DOF or prescribed and is, a dependent DOF; tying matrices of matching sizes for all DOFs of the mesh; arguments of the right shape. Valid input is accepted, and the results are those of the build without assertions.", "quantifier": "every array of coordinates, DOFs, control DOFs, tied pairs and prescribed DOFs, every connectivity, every tying matrix and every argument, of any shape; both builds", "why_tests_cant": "the inputs are unbounded arrays of any shape and content, and a tie on a tie is only an error in combination with another one", "anchors": ["include/GooseFEM/TyingsPeriodic.h:Periodic", "include/GooseFEM/VectorPartitionedTyings.h:VectorPartitionedTyings", "include/GooseFEM/Mesh.h:Reorder", "include/GooseFEM/Vector.h:Vector", "include/GooseFEM/config.h:GOOSEFEM_ASSERT"]}
{"id": "C113", "title": "Matrices with tyings and their solver: invalid arguments throw when the library is compiled with its assertions", "statement": "Compiled with its assertions, MatrixPartitionedTyings accepts exactly tying matrices of matching sizes for the DOFs of the mesh, and the object is the same as in the build without assertions. After every program of calls that catches exceptions, every call whose arguments have the right shapes returns an array of the right shape (the same in both builds), every other call throws and leaves the matrix and the solver untouched, dot and reaction always throw, and no call accesses an array out of bounds or reads what was not written. The dense form is the matrix of the last accepted assemble, and the solution is that of the condensed system.", "quantifier": "all connectivities, DOF arrays, tying matrices, programs of calls with arrays of any rank and shape, iteration orders and linear solvers", "why_tests_cant": "The shapes, programs and orders are unbounded; the assertions are off in the shipped build and in most tests", "anchors": ["include/GooseFEM/MatrixPartitionedTyings.h: MatrixPartitionedTyings, MatrixPartitionedTyingsSolver", "include/GooseFEM/Matrix.h: MatrixBase, MatrixSolverBase"]}
{"id": "C114", "title": "Functions on meshes: invalid arguments throw when the library is compiled with its assertions", "statement": "Compiled with its assertions, edgesize and centers return the lengths of the edges and the averages of the nodes of quadrilaterals whose nodes exist and throw on every other call; elemmap2nodemap, nodaltyings, elem2node with DOFs, and getOrientation and setOrientation of triangles return what they describe for every correct call, the same in both builds, and throw on every other; no call accesses an array out of bounds.", "quantifier": "all arrays of coordinates, connectivities, DOFs, element maps and orientations, of any rank, shape and entries, and both builds", "why_tests_cant": "Shapes and entries are unbounded; the assertions are off in the shipped build and in most tests", "anchors": ["include/GooseFEM/Mesh.h: edgesize, centers, elemmap2nodemap, nodaltyings, elem2node", "include/GooseFEM/MeshTri3.h: getOrientation, setOrientation"]}
{"id": "C115", "title": "Meshes, selections of elements and mappings: invalid arguments throw when the library is compiled with its assertions", "statement": "Compiled with its assertions, the constructors of Quad4, Tri3 and Hex8 meshes and of RefineRegular throw unless there is at least one element in each direction; elementsLayer throws for a layer that does not exist; elementgrid_ravel accepts exactly ranges that are omitted or have two bounds inside the mesh and selects elements between its bounds only; meanToCoarse, averageToCoarse, mapToFine and mapToRegular throw unless data and weights have a row per element of the mesh they come from; as3d throws unless there are one to three columns. All other calls return what these functions describe, for data of any rank, the same in both builds.", "quantifier": "all numbers of elements, sizes, layers, lists of bounds, refinements, data and weights of any rank, shape and entries, and both builds", "why_tests_cant": "Sizes, ranges, ranks and shapes are unbounded; the assertions are off in the shipped build and in most tests", "anchors": ["include/GooseFEM/MeshQuad4.h: Regular, FineLayer, FineLayer::elementsLayer, FineLayer::elementgrid_ravel, Map::RefineRegular, Map::FineLayer2Regular::mapToRegular", "include/GooseFEM/MeshTri3.h: Regular", "include/GooseFEM/MeshHex8.h: Regular, FineLayer", "include/GooseFEM/Allocate.h: as3d"]}
{"id": "C116", "title": "Bodies of revolution: volume, zero-energy displacements, uniqueness and the patch test", "statement": "With the axisymmetric element and Gauss integration, on every conforming mesh of quadrilaterals, the integration volumes add up to the exact volume of the body of revolution (2 pi times the integral of the radius over the area); on the regular and refined meshes moved a distance R0 >= 0 from the axis they are positive and add up to pi ((R0 + Ly)^2 - R0^2) Lx. With four integration points the strain of an element is zero for a translation along the axis and for nothing else, so that one prescribed axial displacement removes all mechanisms (no radial one is needed), none leaves one, and the statics program has exactly one answer. The forces of a uniform stress with equal radial and circumferential parts and no shear balance at every inner node, and along the axis at nodes on the axis, so that a stretch that is prescribed on the outline is found at all nodes.", "quantifier": "all meshes (conforming; regular or refined, all sizes and distances to the axis), all element objects with their histories of update_x, all materials without zero-energy strains, prescribed DOFs, loads, solvers for positive definite systems and loop orders", "why_tests_cant": "The meshes, the distances to the axis, the loads and the schedules are unbounded; mechanisms are statements about all displacements", "anchors": ["include/GooseFEM/ElementQuad4Axisymmetric.h: QuadratureAxisymmetric", "include/GooseFEM/ElementQuad4.h: Quadrature::Gauss, Quadrature::Nodal, Quadrature::MidPoint", "include/GooseFEM/MatrixPartitioned.h", "include/GooseFEM/VectorPartitioned.h", "include/GooseFEM/MeshQuad4.h: Regular, FineLayer"]}
{"id": "C117", "title": "Checked build: conversions, tensors of scalars, control nodes, nodal masses and FineLayer(coor, conn)", "statement": "With GOOSEFEM_ENABLE_ASSERT, Element::asElementVector and assembleNodeVector, asTensor and AsTensor (also by a quadrature), Tyings::Control, Mesh::nodal_mass, Mesh::center_of_gravity and the constructor of FineLayer from a mesh return for every correct call exactly what the documentation says (as the build without assertions does), and every call with arrays of another rank or shape, another element type, or nodes that do not exist throws: no call reads out of bounds or computes with other data.", "quantifier": "all arrays of all ranks, shapes and contents, all element types and loop orders, both builds", "why_tests_cant": "Wrong calls come in unboundedly many shapes and contents; that each of them throws, and that none of the correct ones does, is not a matter of examples", "anchors": ["include/GooseFEM/Element.h: asElementVector, assembleNodeVector", "include/GooseFEM/Allocate.h: asTensor, AsTensor, has_shape_begin", "include/GooseFEM/TyingsPeriodic.h: Control", "include/GooseFEM/Mesh.h: nodal_mass, center_of_gravity", "include/GooseFEM/MeshQuad4.h: FineLayer(coor, conn)", "include/GooseFEM/Element.h: QuadratureBase::asTensor"]}
{"id": "C118", "title": "The meshes of hexahedra Hex8::Regular are conforming and in one piece", "statement": "In conn() of every Mesh::Hex8::Regular the eight corners of an element are different nodes. Each of the six sides of an element either lies in the corresponding boundary set (nodesFront, nodesBack, nodesLeft, nodesRight, nodesBottom, nodesTop), and then no other element has its four nodes; or it lies in no boundary set, and then exactly one other element has its four nodes, and they are a side of it with the opposite orientation. The boundary sets consist of such sides. Every element can be reached from every other one through common sides.", "quantifier": "every number of elements in the three directions and every size", "why_tests_cant": "A global combinatorial property of conn() and the boundary sets of an unbounded family of meshes", "anchors": ["include/GooseFEM/MeshHex8.h: Regular"]}
{"id": "C119", "title": "Volume and mass of the bodies of hexahedra", "statement": "For a Hex8 quadrature object (either rule of eight points, any history of update_x) on the coordinates of any mesh of Mesh::Hex8::FineLayer, also with refined layers, all integration volumes dV are positive and their sum is (h nelx)(h nely)(h nelz), with nely the number that the constructor settled on; likewise on Mesh::Hex8::Regular. For a uniform density the entries of Int_N_scalar_NT_dV that belong to one direction add up to the density times that volume.", "quantifier": "every number of elements, size and nfine with which the mesh can be made; every rule, density, loop order and history of the object", "why_tests_cant": "The number of elements and the arrangement of refined layers are unbounded; no test computes the volume of a FineLayer of hexahedra", "anchors": ["include/GooseFEM/MeshHex8.h: FineLayer, Regular", "include/GooseFEM/ElementHex8.h: Quadrature, dV, Int_N_scalar_NT_dV"]}
{"id": "C120", "title": "Gradients on Mesh::Hex8::FineLayer", "statement": "For a Hex8 quadrature object (Gauss or Nodal, any history of update_x) on the coordinates of any mesh of Mesh::Hex8::FineLayer, gradN_vector returns G at every integration point of every element for the nodal displacement a + G . x.", "quantifier": "every number of elements, size and nfine with which the mesh can be made; every element, integration point, displacement a, G, loop order and history of the object", "why_tests_cant": "The arrangement of refined layers and the displacements are unbounded; the tests of the gradients only use Mesh::Hex8::Regular, of which all elements are boxes", "anchors": ["include/GooseFEM/MeshHex8.h: FineLayer", "include/GooseFEM/Element.h: QuadratureBaseCartesian::compute_dN_impl", "include/GooseFEM/ElementHex8.h: Quadrature, gradN_vector"]}
{"id": "C121", "title": "The diagonal mass matrix on meshes of hexahedra and quadrilaterals", "statement": "On any mesh of hexahedra with positive volumes dV and without unused nodes, for any numbering of the DOFs without holes (also periodic) and any positive density: with nodal integration the element matrices of Int_N_scalar_NT_dV are diagonal; MatrixDiagonal::assemble accepts them and gives every DOF a positive mass; the masses add up to three times (once per direction) the integral of the density; and for every nodal force f, solve returns the nodal accelerations with mass times acceleration = f, which Dot maps back to f. In particular this holds on every mesh of Mesh::Hex8::FineLayer, refined or not, and of Mesh::Hex8::Regular, with the density times the volume of the domain; and likewise with Element::Quad4 on every mesh of Mesh::Quad4::Regular and Mesh::Quad4::FineLayer, with twice the density times the area.", "quantifier": "every mesh, numbering of the DOFs, density, force, loop order and history of the quadrature object", "why_tests_cant": "Meshes, densities and forces are unbounded; no test assembles a mass matrix on a mesh of hexahedra with refined layers", "anchors": ["include/GooseFEM/ElementHex8.h: Nodal, Int_N_scalar_NT_dV", "include/GooseFEM/ElementQuad4.h: Nodal, Int_N_scalar_NT_dV", "include/GooseFEM/MatrixDiagonal.h: assemble, data, solve, dot", "include/GooseFEM/MeshHex8.h: FineLayer, Regular"]}
{"id": "C122", "title": "Explicit dynamics on meshes of hexahedra: the momentum is conserved", "statement": "On every mesh of Mesh::Hex8::FineLayer (refined or not) and Mesh::Hex8::Regular, with one DOF per node and direction, a program for explicit dynamics (velocity Verlet as in docs/examples/dynamics) with the diagonal mass matrix from nodal integration and forces from any quadrature, without external force and starting with zero acceleration, runs any number of steps without an error, for any displacement and velocity at the start, any time step and any law of the stress (another one in each step if so wished): every DOF has a positive mass, the masses add up to three times the mass of the body, and in each direction the sum over the nodes of mass times velocity does not change. The same holds on any mesh of hexahedra, given a mass matrix as in C121.", "quantifier": "every mesh, density, initial state, time step, number of steps, law of the stress, loop order and history of the quadrature objects", "why_tests_cant": "Steps, meshes and states are unbounded; no test or example runs a dynamic program on hexahedra", "anchors": ["include/GooseFEM/ElementHex8.h: Nodal, Gauss, Int_N_scalar_NT_dV, Int_gradN_dot_tensor2_dV, symGradN_vector", "include/GooseFEM/MatrixDiagonal.h: assemble, data, solve", "include/GooseFEM/Vector.h: asElement, assembleNode", "docs/examples/dynamics/Elastic-VelocityVerlet/main.cpp", "include/GooseFEM/MeshHex8.h: FineLayer, Regular"]}
{"id": "C123", "title": "The moments of the internal forces are the integral of the stress", "statement": "For the nodal internal forces f assembled by AssembleNode from int_gradN_dot_tensor2_dV of any stress field, with one DOF per node and direction: the forces have no resultant; the sum over the nodes of component j of the position times component i of the force is the integral of component (j, i) of the stress; so that a symmetric stress has no resultant moment about any axis. This holds for Quad4 and Quad4Planar objects with a non-zero Jacobian, and for Hex8 objects with a diagonal non-zero Jacobian, on any mesh; in particular on every mesh of Mesh::Quad4::Regular, Mesh::Quad4::FineLayer and Mesh::Hex8::Regular. (Not for hexahedra with another non-zero Jacobian, of which the gradients are wrong, see C64 and C120: for a sheared cube it is false.)", "quantifier": "every mesh, stress field, quadrature, loop order and history of the quadrature object", "why_tests_cant": "Meshes and stress fields are unbounded; no test checks a moment of assembled forces", "anchors": ["include/GooseFEM/ElementQuad4.h: Quadrature, int_gradN_dot_tensor2_dV", "include/GooseFEM/ElementQuad4Planar.h: Quadrature", "include/GooseFEM/ElementHex8.h: Quadrature", "include/GooseFEM/Vector.h: AssembleNode", "include/GooseFEM/MeshQuad4.h: Regular, FineLayer", "include/GooseFEM/MeshHex8.h: Regular"]}
{"id": "C124", "title": "Explicit dynamics: the moment of momentum", "statement": "The documented velocity Verlet program, with one DOF per node and direction, any MatrixDiagonal mass without zeros, any external force, time step, displacement and velocity at the start, and any law of the stress (another one in each step if so wished) of which the stress is symmetric, runs any number of steps N without an error, and changes the moment of the momentum (about every axis, with the positions the coordinates of the mesh) by N dt times the moment of the external force, if the acceleration at the start has the moment of that force (e.g. both zero). This holds for Quad4 and Quad4Planar objects with a non-zero Jacobian, and for Hex8 objects with a diagonal non-zero Jacobian, on any mesh; in particular on every mesh of Mesh::Quad4::Regular, Mesh::Quad4::FineLayer and Mesh::Hex8::Regular.", "quantifier": "every mesh, mass, force, initial state, time step, number of steps, law with symmetric stress, loop order and history of the quadrature object", "why_tests_cant": "Steps, meshes and states are unbounded; the tests of the library run no dynamic program", "anchors": ["docs/examples/dynamics/Elastic-VelocityVerlet/main.cpp", "include/GooseFEM/MatrixDiagonal.h: assemble, solve", "include/GooseFEM/Vector.h: asElement, assembleNode", "include/GooseFEM/ElementQuad4.h: Quadrature", "include/GooseFEM/ElementQuad4Planar.h: Quadrature", "include/GooseFEM/ElementHex8.h: Quadrature"]}
{"id": "C125", "title": "Loads and reactions are in equilibrium", "statement": "The static program of the documentation (fixed displacements, linear material, MatrixPartitioned with a direct solver that solves the system, as in C82), with one DOF per node and direction and a stiffness that gives a symmetric stress, whatever was done before with the matrix and the solver: it returns without an error an external force that is the given one where the displacement is not prescribed, and that together with the reactions on the prescribed DOFs has no resultant force and no resultant moment about any axis; the sum over the nodes of position times force is the integral of the stress of the displacement that is returned. This holds for Quad4 and Quad4Planar objects with a non-zero Jacobian, and for Hex8 objects with a diagonal non-zero Jacobian, on any mesh; in particular on every mesh of Mesh::Quad4::Regular, Mesh::Quad4::FineLayer and Mesh::Hex8::Regular.", "quantifier": "every mesh, load, prescribed displacement, set of prescribed DOFs, stiffness, history of the matrix, loop order and history of the quadrature object", "why_tests_cant": "Meshes, loads and histories are unbounded; no test checks that the reactions balance the loads", "anchors": ["docs/examples/statics/fixed-displacement_elastic.py", "include/GooseFEM/MatrixPartitioned.h: MatrixPartitioned, MatrixPartitionedSolver", "include/GooseFEM/VectorPartitioned.h: copy_p", "include/GooseFEM/Vector.h: AsElement, AssembleNode", "include/GooseFEM/ElementQuad4.h: Quadrature", "include/GooseFEM/ElementHex8.h: Quadrature"]}
