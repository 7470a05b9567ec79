# Formal model of ENigMA: design

Source: `/repo` (bjaraujo/ENigMA, C++ templates, all paths below relative to `/repo/trunk/src`).
Prover: Rocq/Coq 8.16.1, files under `rocq/theories`, logical name `Verif`.
The code is never built or run; everything is modelled from the text.

## Conventions

* `Real` is modelled by exact rationals `Q` (or by an arbitrary type with the few operations a
  function needs). Rounding is **not** modelled unless a file says so. A comparison
  `norm(v) <= tol` is modelled exactly as `0 <= tol /\ v.v <= tol*tol`.
* `Integer` (C++ `int`) is modelled by unbounded `Z` (`nat` for positions). Overflow is not modelled.
* `std::map<Integer,T>` is a finite map, `std::vector<T>` a list.
* C++ outcomes: a function that can throw (`.at`, ...) or be undefined (`v[i]` out of range,
  `erase(end())`, NaN-to-int cast) returns an outcome type with distinct constructors
  (`Prelude.outcome`: `Ok`, `Throw`, `UB`). Theorems say which outcome happens.
* Loops are folds or structural recursion. Where the C++ loop needs a measure, fuel is explicit and
  the theorem excludes running out of fuel.
* Each area has `X_Model.v` (definitions only, each citing file and lines), `X_Proofs.v` (lemmas), and
  a property file `X_Props.v` with one theorem per property, closed by `exact`, followed by
  `Print Assumptions`, and with a non-trivial `Example` that meets the hypotheses.
* Properties that the code violates get a theorem named `..._refuted` with a concrete witness; the
  strongest version that does hold is proved next to it.

## Plan by property

| id | model | proof |
|----|-------|-------|
| C01-C06 | Mesh container as a state (ids vector, map, index map, counter) with `add`, `remove`, `nextId`, copy, `addMesh`, `renumber` | invariant by induction over operation lists; refinement to an insertion-ordered association list |
| C07 | `mergeNodes` loop over node ids with abstract proximity relation | invariant of the substitution map; refutation by a 3-node chain |
| C08, C09 | `mergeElements`, `removeInvalidElements`, `removeDanglingNodes` | induction over ids; equality with `filter` specifications |
| C10, C24 | bounding box over Q | fold invariant |
| C11, C12 | face tables and inversion, node ids arbitrary | counting of directed edges, `ring` |
| C13, C14 | `generateFaces` pairing with exact centre search; boundary extraction | matching invariant; chain-complex argument (boundary of boundary vanishes) |
| C15-C18 | structured meshers with symbolic sizes | counting, injectivity of node numbering, `field` identities, telescoping sums |
| C19, C20 | hash grid: two-pass counting sort, range query | array invariants; monotonicity of the cell map |
| C21, C22 | ADT: tree, insert, query, removal by ordinal | tree invariant for an arbitrary midpoint function |
| C23 | octree | soundness by induction, incompleteness by witness |
| C25-C29 | segment, vertex list, line list | `nra`/`field` over Q, induction over lists |
| C30-C35 | polygons, volumes, polyhedra, spheres, splitting; clipping and cutting at a fraction of the volume (Frac_Model) | vector algebra over Q, induction; invariant of the search interval (the last value is that of one of its ends, the ends have opposite signs) |
| C36, C65-C67 | BSP tree: split, clip, build, boolean operations, cube | induction on trees and fuel; convex-ring splitting lemmas over Q |
| C37, C38 | STL text and binary writer and loader on byte lists, facet storage | round trips by induction over the facets; position of "vertex" in the test window from the line lengths; line counting by induction; witnesses for missing zero byte and for mistaken text |
| C39, C40, C78 | Gmsh, VTK and Gnuplot files as lines of words (Post_Model); number formatting is a parameter | reader run on the lines the writer makes, by induction over nodes and elements; counts by induction |
| C41-C43, C68 | linear systems as functions on indices (Lin_*); solver a parameter | linear algebra over finite sums |
| C44, C69 | finite-difference assembly loops (Fdm_*) | closed form by loop invariant; argmax argument; Thomas elimination for existence |
| C45, C70, C71 | finite-volume operators on a mesh with faces, geometry a parameter (Fvm_*) | residual of the assembled system by loop invariant; pairing is an involution; argmax; square systems with trivial kernel are solvable (Lin_Exist) |
| C46, C47 | element matrices of beams, triangles, quadrilaterals, tetrahedra, hexahedra, prisms; constant-strain triangles and tetrahedra, over R | bilinear forms: B^T B structure, J = G X for exactness on linear fields, nested integrals for masses |
| C74, C75, C76 | assembly of storage, diffusion, convection and sources over mesh tables | the form of the assembled matrix is the sum of element forms (fold invariant); implicit step by energy argument |
| C48, C49 | D2Q9 lattice Boltzmann (Lbm_*) | `field`, induction over steps |
| C50, C51, C73 | SPH kernels, density, advection with cyclic wrap, diffusion in place (over R) | `lra`/`nra`; radial integrals with Coquelicot `is_RInt`, derivatives along rays; loop invariant for the maximum principle |
| C52, C53, C72 | bisection and Brent for an arbitrary function `f` (Root_*); function objects over an arbitrary expression language | loop invariants |
| C54 | control-volume mesh as built by set() (Fvm_Set) | invariant: representatives of the faces seen so far |
| C55 | VOF fractions: assembly over cells and faces, clamping, weights, Courant numbers (Piso_Model) | rows of the assembled system by a fold invariant; sum over cells regrouped by faces; clamping bounds |
| C77 | PISO: momentum predictor, pressure equation, flux and velocity correction over an abstract mesh of cells and faces; the linear solvers are arbitrary functions | loops flattened to visits, row of the pressure system = sum over faces, value of a face = last visit (the owner of a face comes before its neighbour, as CFvmMesh builds it); rest by energy uniqueness |
| C79, C80, C81, C82 | analytical reference solutions over R (Ana_Model); floating-point evaluation is not modelled | modes are eigenfunctions of the second derivative (`twice`), summed by induction; Leibniz series from the standard library for the values on the hot side; convexity and `sinh` for the range; logistic function for Burgers |
| C83, C84, C85 | mesh queries, extrusion and mesh checks (Query_Model); normalisation, the tests of two lines and of two triangles and the neighbourhood search are parameters | merge of sorted lists by induction; extension invariant over the loop of the extruder; face pairing of C13 for openness; case analysis of the two counters for crossings |
| C86 | structural assembly with several unknowns per node (Struct_Model) over R; the zero right-hand side is not modelled | assembled form is a sum of element forms (stamping lemma of C74), element theorems of C47; rigid motions propagate across shared edges by induction on the connecting chain |
| C87, C88 | CSG cylinders and spheres over R (Prim_Model), polygons with closing and normals as handed to the boolean | vertices in an orthonormal frame or in spherical coordinates; every corner determinant is a product of positive sines; watertight by counting edges and reindexing the sums; the volume of a closed surface does not depend on the reference point; sine sums telescope |
| C89 | the STL file as id list and map (Stl_Model), operations as a list | the file represents the list of facets added and not removed; induction over operations |
| C90 | generateConnectivity (Surf_Model) over the hash grid model | the grid returns exactly the near edges (C19); induction over facets and edges; opposite and unique near edges make links symmetric |
| C91 | splitFacets and getFacetQuality on linked facets (Surf_Model), one turn per facet of the growing list | one cut as a map on half-edges keeps links, boundary, area and volumes; a sum of surplus areas drops by one with every cut, which bounds the turns; induction over turns; the quality by the sine rule |
| C92 | mesh and set (Surf_Model), the walk around a vertex with its limit of 100 | a walk visits the corners of one fan, forward and backward; the set of visited corners is closed under going on, bounded by the corners at the point; induction over steps |
| C93 | setOrientation and invertFacet (Surf_Model) | turning one facet over toggles its side in any 2-colouring by orientation; breadth-first search invariant: listed facets have the side of the pivot |
| C94 | vertices and remembered measures of six shapes, all editing, measuring and resetting calls (Memo_Model) | one-step lemma per call and kind of measure, induction over the history from its end |
| C95 | calculateStatistics (Surf_Model), checkEdges, removeInvalidFacets, removeDuplicateFacets, removeFacet (Clean_Model) | loop invariants (examined prefix, remaining facets); search results of the hash grid (C19); comparison of areas without roots proved equal to that of the areas |
| C96 | generate, the advancing front, addTriangle, cleanDuplicateEdges, adjustConnectivity (Front_Model; geometric tests as oracles) | invariant of the front: parity of sides of triangles, active edges and beams; removal of dangling nodes and merging as in C18, C20; antisymmetric sums cancel |
| C97 | flipEdges and relaxNodes (Tune_Model; the quality of a triangle is an arbitrary function) | loop invariants over the sweep; signed counts of directed sides are kept by a flip; the area as a sum over net sides depends on boundary nodes only; pairing of C13 for the faces |
| C98 | assembly of the temperature system and the step with the flow (Heat_Model, on Piso_Model) | rows of the system as sums over faces with some positive conductivity each; argmax argument; square systems with trivial kernel are solvable (Lin_Exist); face-wise cancellation of C77 |
| C99 | flow elements, their assembly and the velocity-pressure step in two and three dimensions (Stream_Model, on Fem_Model and Asm_Model); elimination and solution are one function, assumed right on systems with exactly one solution (C41) | element matrices as sums of products of rows of B, which give gradients of linear fields; assembled forms as sums over elements (stamp lemmas of C74); uniform fields solve every equation of a step; the storage matrix is positive definite; C99_balance2/3: exact solvers find the fields satisfying the discrete balances |
| C100 | collapseEdges with merging, renumbering and generating of faces (Collapse_Model, on Merge_Model, Face_Model, Tune_Model) | invariant over the loop of triangles (places reached by hops, marks explained); lemmas of C05/C06/C13 on merging, renumbering and faces; cancellation of sides for areas as in C97 |
| C101 | Hull_Model.v: the projection with the axes of the first three points as columns, sorting, both passes of the monotone chain as a stack, set and the constructor; arithmetic over R with square roots; std::sort is an insertion sort | invariant of the stack (sorted, no left turn, hence every edge supports all entries), a removed vertex is exceeded by a neighbour for every linear function not decreasing upwards, both chains meet only at their ends; areas in the projection are those of the plane times a constant. |
| C102 | set, build and findClosestBoundaryFaces with the centroid of a face (Search_Model, on HashGrid_Model); the mesh is the list of its faces | through C19: within twice the distance exactly, then the selection |
| C103 | flipEdges23 and relaxNodes of CMshTetrahedronMesher with volume and the flags of boundary nodes (Tet_Model, on Face_Model and Query_Model); the quality of a tetrahedron is a parameter | sides of tetrahedra counted with sense (Tet_Walls): the signed count of a side is unchanged by a flip, volume is a sum over sides in which opposite ones cancel (divergence theorem); the loop invariants (Tet_Proofs, Tet_Relax); pairing of faces as in C13 (Tet_Faces) |
| C104 | flipEdges32 of CMshTetrahedronMesher with the query for the elements at an edge and the removal of the collapsed elements (Tet_Model); the quality of a tetrahedron is a parameter | in a mesh whose sides cancel inside, three tetrahedra at an edge form a ring (Tet_Ring); the volume test picks the edge opposite to the new face; invariant of the loop over elements, faces and edges (Tet_Edge): signed counts of sides are unchanged, collapsed elements contribute nothing |
| C105 | flipEdges and relaxNodes of CMshQuadrilateralMesher (Quad_Model); the qualities of triangles and quadrilaterals are parameters; an endless loop (an element that is neither, met during a walk) is an undefined result | one lemma for replacing a triangle and a quadrilateral by others of the same outline (Quad_Proofs: signed counts of sides, area, shape, quality), used for both variants; faces made by generateFaces (Quad_Faces); the walk around a node collects existing nodes only, their mean stays in every half space (Quad_Relax) |
| C106 | flipEdges of CStlUtils with remembered normals and areas (Remesh_Model, on Surf_Model); the smallest positive number is a parameter | only facets not yet changed are used, so links and corners are those of the start; the signed count of edges is unchanged by exchanging a diagonal (Remesh_Proofs) |
| C107 | relaxVertices of CStlUtils with remembered normals (Remesh_Model); outline flags are a parameter | the walk around a vertex collects a set of corners closed in both directions under going to the linked corner, so linked corners move together (Relax_Proofs) |
| C108 | qualities of triangles, quadrilaterals, tetrahedra, prisms; quality and meshQuality of meshes with not-a-number (Rate_*) | Heron and Schur for triangles, diagonals for quadrilaterals, heights below medians and a tangent inequality for tetrahedra; loop invariant for the summary; witnesses for the ratings that mislead |
| C109 | remesh of CMshTriangleMesher: the growing loop over elements, cutting beams and shared long sides, flags of cut elements, generateFaces at the end (Resize_*) | loop invariant: elements not yet flagged are unchanged with their faces, directed sides cancel as before, each side runs once; area from the sides; witnesses |
| C110 | the same loop on beams, with the exact rounding of length by size (Resize_*) | rounding from integer square roots; invariant of the pieces of one beam; invariant that the elements are the rows of the beams done and the beams to do; pieces are too short to be cut again, hence the end |
| C111 | fields, boundary conditions and materials: all setters, askers and additions as calls on maps, the solution vector with entries never written (Field_*) | induction on the sequence of calls: a call about another place changes nothing here, a call about this place does the same in two fields that agree here; presence as a disjunction over the calls |
| C112 | applyFixedBoundary on the mesh tables and the hash grid (Fix_*) | exactness of the hash grid search (C19) and the invariant that exactly the faces on the edges done have lost their pair |
| C113 | collapseNakedEdges on the mesh tables, lengths compared without roots (Naked_*) | the comparison is that of real lengths; invariant of places reached along naked edges; invariant of short edges done, with the triangle inequality for long ones |
| C114 | contains and distance of CGeoTriangle for points, the loop written out, over R (Inside_*) | sides are weights times twice the area; the foot is the nearest point of the plane; cases of the loop |
| C115 | intersects of CGeoTriangle for lines and triangles, with the cut of a line and a plane over R; the intersection of two lines in one plane is a parameter (Cross_*) | the cut is the common point; a common point defeats the early rejections; contained points from C114 |
| C116 | calculateFaceCentroid, calculateElementCentroid and the two getters on the mesh tables, the vectors kept apart (Cent_*) | positions of the list are those of the ids; removal keeps the indices of what stays |
| C117 | contains and intersects of CGeoLine for two lines and the angle of vectors, over R with acos (Meet_*) | the angle of a positive multiple is 0, of the zero vector a right angle; the part of the crossing is the one of the common point; lines along one straight line with a common start, or end to start, by the sign of the product of their directions; else one of the four ends is inside the other line; parallel lines apart: a witness that they can be said to meet, with a bound of the sine |
| C56 | quadrature tables, copied constant by constant | exactness for all polynomials by linearity and a check of the monomials in integer arithmetic |
| C57 | box mesher with prescribed cell size | reuse of the structured mesh theorems |
| C58, C59 | segment-segment distance, segment-plane intersection | `nra`/`field` over Q |
| C60-C62 | polygon area, clipping by a plane, point in tetrahedron | vector algebra over Q |
| C63, C64 | circles, sphere boxes | Cramer's rule, witnesses |

## Trusted base

* The Coq kernel (and `coqchk` as an independent check).
* `Print Assumptions` output under each property theorem (listed at the end of this file). Only the
  theorems about SPH and finite elements (over the real numbers of the standard library) use axioms: those of the
  standard library's reals, functional extensionality and classical logic.
* The reading of the C++ text: the models are written by hand from the cited lines.
* Not modelled: floating-point rounding, integer overflow, memory allocation failure, Eigen solvers
  (treated as arbitrary or exact solvers where said), exprtk, file-system failures except where stated.

## What is modelled, file by file

Generated from the headers of the model files; every definition cites its lines. Code not listed is not modelled.

* `Mesh_Model.v`: Model of the mesh container CMshMesh (mesh/MshMesh.hpp, mesh/MshMesh_Imp.hpp). The class holds three structurally identical tables (nodes, faces, elements); each consists of an id vector, a map id -> value, a map id -> index and a running index counter (MshMesh.hpp:36-50). The table operations are modelled once and used three times. Simplifications: m_dx/m_dy/m_dz, thickness and the centroid caches are not represented.
* `Box_Model.v`: Model of CGeoBoundingBox (geometry/GeoBoundingBox_Imp.hpp) and of the mesh functions that build one (mesh/MshMesh_Imp.hpp:1060-1090).
* `HashGrid_Model.v`: Model of CGeoHashGrid (geometry/GeoHashGrid_Imp.hpp, geometry/GeoContainer_Imp.hpp). [Real] is Q. The number of cells per axis, static_cast<Integer>(pow(N, 0.333)) + 1 (GeoHashGrid_Imp.hpp:53-55), is a parameter [n]: nothing but [1 <= n] is used. Assigning CGeoVector members, resizing and allocation are taken to succeed.
* `Merge_Model.v`: Model of the mesh clean-up operations: mergeNodes, mergeElements, removeInvalidElements, removeDanglingNodes (mesh/MshMesh_Imp.hpp:512-808). The proximity search is the hash grid of HashGrid_Model; its number of cells per axis is the parameter [n] (the code derives it from the number of points).
* `Face_Model.v`: Model of the topology of elements and of face generation, pairing and boundary extraction (mesh/MshElement_Imp.hpp:110-402, mesh/MshMesh_Imp.hpp:242-393 and 945-954).
* `Grid_Model.v`: Model of the structured mesh generator (mesh/MshBasicMesher_Imp.hpp) and of the volume and area formulas of the cells it produces (geometry/GeoHexahedron_Imp.hpp, GeoTetrahedron_Imp.hpp, GeoQuadrilateral_Imp.hpp, GeoTriangle_Imp.hpp). Simplifications: exact arithmetic; [Integer] is unbounded, so node numbers never overflow (the code needs (nu+1)*(nv+1)*(nw+1) < 2^31); m_dx, m_dy, m_dz are not kept.
* `Adt_Model.v`: Model of CGeoAdtree6 and CGeoAdtree (geometry/GeoAdtree_Imp.hpp, geometry/GeoAdtree.hpp). [Real] is Q. The tree starts with a call of set(); calling set() a second time on the same object (which leaks the first tree) is not modelled. The counter nbChildren is written but never read and is left out. Nodes are never moved, so a node pointer is modelled by the path from the root.
* `Oct_Model.v`: Model of CGeoOctree (geometry/GeoOctree_Imp.hpp, GeoOctreeNode_Imp.hpp, GeoContainer_Imp.hpp). [Real] is Q.
* `Seg_Model.v`: Segments, vertex lists and line lists. Paths are relative to /repo/trunk/src. Real is Q (no rounding).
* `Poly_Model.v`: Polylines, polygons, polyhedra, and the cells that use them. Paths are relative to /repo/trunk/src/geometry. Real is Q (no rounding). A polygon is its polyline: the cached normal, area and centroid (GeoArea.hpp) are left out, that is, every measure is computed from the current vertices.
* `Cell_Model.v`: Decomposition of cells, points in tetrahedra, circles and spheres through points. Paths are relative to /repo/trunk/src/geometry. Real is Q (no rounding).
* `Csg_Model.v`: Constructive solid geometry by BSP trees. Paths are relative to /repo/trunk/src. Real is Q (no rounding).
* `Lin_Model.v`: Linear systems and equations (sle/SleSystem.hpp, sle/SleSystem_Imp.hpp, pde/PdeEquation_Imp.hpp), function by function. A vector is a function on the indices together with its size, a matrix a function on pairs of indices; an access beyond the size is [UB] (Eigen asserts in debug builds only). An Eigen::SparseMatrix is its table of values: entries that are not stored are 0, and the loops over stored entries below are loops over all entries (the extra iterations copy a 0 onto a 0). Reals are rationals.
* `Fdm_Model.v`: Finite differences (pde/fdm/generic/FdmGenericOperators_Imp.hpp; pde/fdm/thermal/FdmThermalOperators_Imp.hpp has the same ddt and laplacian), function by function. [n] is nbNodes(), [dx] the spacing of the mesh, [u] the field, [fixed] its uFixed. Reals are rationals; dx = 0 would be a division by zero (in Q: 1/0 = 0), the theorems exclude it.
* `Fvm_Model.v`: Finite volumes: the control-volume mesh (fvm/FvmMesh_Imp.hpp, fvm/FvmFace_Imp.hpp, fvm/FvmControlVolume_Imp.hpp) and the operators (pde/fvm/generic/FvmGenericOperators_Imp.hpp; pde/fvm/thermal/FvmThermalOperators_Imp.hpp has the same ddt and laplacian), function by function. Paths are relative to /repo/trunk/src.
* `Lbm_Model.v`: The lattice-Boltzmann solver (solvers/LbmLidDrivenSolver_Imp.hpp, CLbmLidDrivenSolver<Real, 2, 9>), function by function. Paths are relative to /repo/trunk/src.
* `Root_Model.v`: Root finding and function objects (analytical/AnaFunction_Imp.hpp), function by function. Paths are relative to /repo/trunk/src. The function is any map on the rationals: evaluate(strVar, x) is taken to return a value that depends on x only and not to change x (an expression may assign to its variable in exprtk; such expressions are not covered).
* `Int_Model.v`: Quadrature rules (trunk/src/integration). A rule is a list of points, each with its coordinates and its weights along the axes; the users of the rules (trunk/src/fem/FemQuadrilateral_Imp.hpp 104-131, FemHexahedron_Imp.hpp 83-139, FemTriangularPrism_Imp.hpp 116, trunk/src/bem/BemTriangle_Imp.hpp 43-49) multiply the weights. The decimal literals are taken as exact rationals; entries the code leaves unset are zero (std::vector::resize).
* `Sph_Model.v`: Smoothed particle hydrodynamics: the kernels of trunk/src/sph and the particle solver of trunk/src/solvers/SphParticles_Imp.hpp. Real arithmetic is exact (type R), std::acos(-1.0) is PI.
* `Fem_Model.v`: Finite elements (fem/, fem/thermal, fem/structural and the area, volume and length functions of geometry/ they use), element by element. Arithmetic is exact over R; norms are square roots. Matrices are functions of row and column; an element matrix is what the C++ object holds in laplacian, ddt or divergence after update(). Eigen's inverse() of a singular matrix (divisions by zero) is excluded in the theorems.
* `Asm_Model.v`: Assembly of finite-element systems (pde/fem/generic/FemGenericOperators_Imp.hpp), fields with one unknown per node. The element objects keep their defaults (time step, diffusion coefficient, section and thickness 1: FemElement_Imp.hpp 17-23, FemBeam_Imp.hpp 28-29, FemTriangle_Imp.hpp 24, FemQuadrilateral_Imp.hpp 24). The sparse matrix is a function of row and column; writing outside it is UB.
* `Stl_Model.v`: STL files (stl/StlFile.hpp, stl/StlFile_Imp.hpp, stl/StlUtils_Imp.hpp): facet storage, text and binary writing and reading, bounding statistics. A file is its list of bytes (0..255, chars as unsigned). Numbers are of an arbitrary type V; conversion to and from the 32 bits of a float and printing and parsing of numbers are arguments. Little-endian machine. Malformed text is UB here. File-system errors are not modelled.
* `Piso_Model.v`: Flow solvers on control volumes: solvers/FvmPisoSolver_Imp.hpp and solvers/FvmVofSolver_Imp.hpp, function by function, over exact rationals. The mesh is seen through its accessors: cells, the faces of a cell, owner, neighbour and boundary type of a face, areas, distances and normals. Maps from ids to numbers are total functions (the constructor gives every cell and face a value; densities and viscosities must be set before). Rows and columns of the systems are named by cell id instead of its position. The linear solvers (Eigen) are arguments.
* `Post_Model.v`: Model of the mesh files: post/PosGmsh_Imp.hpp (save and load), post/PosVtk_Imp.hpp (save), post/PosGnuplot_Imp.hpp (save, nodes). A text file is a list of lines and a line a list of words. An integer is a word of its own; a number is kept together with the number of significant digits it is printed with, and what a reader makes of it is the function [parse] given to the loader. Words are separated by one blank, which is all the writers produce.
* `Ana_Model.v`: Analytical solutions (trunk/src/analytical/AnaTemperature_Imp.hpp, AnaFlow_Imp.hpp), function by function, over the real numbers: no rounding, std::acos(-1.0) is PI, sin, cos, sinh, exp, sqrt are the functions of the standard library. A division by zero or the root of a negative number, which leave an infinite or undefined Real, are [UB]. steadyStateHeatConvectionRadiation1D is in [radiation], with the search of Root_Model over rationals.
* `Query_Model.v`: Model of mesh queries (mesh/MshMeshQuery_Imp.hpp), of extrusion (mesh/MshExtrudedMesher_Imp.hpp) and of mesh checks (mesh/MshCheckMesh_Imp.hpp). Simplifications: loops over positions are loops over the ids in order; std::map<Integer, std::vector> of the query is a function from node ids to lists (a missing key and an empty list are not distinguished: operator[] inserts an empty list); Eigen's normalize() is an arbitrary function [unit] on coordinates, because square roots are not rational.
* `Struct_Model.v`: Assembly of structural finite-element systems (pde/fem/structural/FemStructuralOperators_Imp.hpp), d unknowns per node. The sparse matrix is a function of row and column; writing outside it, or reading outside an element matrix, is UB. ddt, divergence and source (26-30, 150-160) are empty functions. The right-hand side only receives the zero sources of the elements (FemConstantStrainTriangle_Imp.hpp 23-24, FemConstantStrainTetrahedron_Imp.hpp 23-24) and is not modelled. Element thickness is a function of the element id (MshElement_Imp.hpp 404-414).
* `Prim_Model.v`: CSG primitives with curved surfaces: csg/CsgCylinder_Imp.hpp and csg/CsgSphere_Imp.hpp, with closing and normals of polygons (geometry/GeoPolyline_Imp.hpp 111-121, geometry/GeoPolygon_Imp.hpp 64-91). Arithmetic, sine and cosine are exact over R (std::acos(-1.0) is pi); numbers of slices and stacks are natural numbers (negative ones give empty lists like zero). The polygons are what is handed to CCsgBoolean.
* `Surf_Model.v`: Triangulated surfaces in STL files (stl/StlFile_Imp.hpp, stl/StlUtils_Imp.hpp): connectivity of facets, splitting, inversion, orientation, conversion from and to meshes, bounding box. Coordinates are exact rationals; lengths, angles and the quality of a facet are real numbers. Normals, areas and the flags of edges (outline, naked) are not represented. Vertex and edge numbers are taken modulo 3 where the code writes % 3 or uses 0, 1, 2.
* `Memo_Model.v`: Geometric objects which remember what they have measured: CGeoTriangle, CGeoQuadrilateral, CGeoTetrahedron, CGeoHexahedron, CGeoTriangularPrism and CGeoPolygon with the bases CGeoCentroid, CGeoArea and CGeoVolume. Paths are relative to /repo/trunk/src/geometry. Real is Q (no rounding).
* `Clean_Model.v`: Cleaning of STL surfaces: removal of facets, of invalid facets and of duplicates, and the check of edges (stl/StlFile_Imp.hpp, stl/StlUtils_Imp.hpp). Paths are relative to /repo/trunk/src. Continues Surf_Model.
* `Front_Model.v`: Model of the triangulation of a region by an advancing front (mesh/MshTriangleMesher_Imp.hpp): generate and all it calls. Simplifications. - The front (std::vector m_anAdvFront) is a list, the id of an edge is its position; the fields elementId, nodeNotId3, boundary and line are left out: they serve only the geometric tests below. - The R-tree (m_tree) is the list of the ids it stores; find() returns those stored ids that an arbitrary function of the state picks (boxes and the search in the tree are not modelled). - Which existing node is near enough, the quality of a triangle, the tests for crossing edges (edgeOk) and for nodes in a triangle (triangleContainsNode), the place of a new node, checkDelaunay, the bounding box and the stop flag are arbitrary functions of the whole state, collected in [judge]; so the theorems hold whatever these tests answer. - The test for upright triangles, normal().z() > aTolerance, is exact over the rationals. - The loop over the growing front is given a number of turns; running out of them is [None] (not finished). - The state an object is left in by an exception is not modelled.
* `Tune_Model.v`: Model of the improvement of triangulations: flipEdges and relaxNodes of CMshTriangleMesher (mesh/MshTriangleMesher_Imp.hpp 1218-1501). Simplifications: - The quality of a triangle (mesh/MshTriangle_Imp.hpp 28-45) is an arbitrary function of its three corners with rational values (every finite double is one). - Coordinates are exact rationals; normal().z() > aTolerance is decided exactly ([upright] of Front_Model). - Loops over positions are loops over the ids in order (the id vectors do not change while the loops run).
* `Heat_Model.v`: Temperature on control volumes: solvers/FvmTemperatureSolver_Imp.hpp (paths relative to /repo/trunk/src), on top of the flow solver of Piso_Model, with its simplifications: exact rationals, the mesh seen through its accessors, maps from ids to numbers as total functions (reading a property before setMaterialProperties would throw), rows named by cell id, the linear solver an argument.
* `Stream_Model.v`: Finite elements for flow: fem/flow/FemFlowTriangle_Imp.hpp, FemFlowTetrahedron_Imp.hpp, pde/fem/flow/FemFlowOperators_Imp.hpp and the solver solvers/FemCbsSolver_Imp.hpp. Arithmetic is exact over R; one unknown per node (nbDofs 1, as the solver sets); elements keep the thickness 1 of MshElement_Imp.hpp 19. The density and viscosity given to the elements are never used by the terms below and are left out.
* `Collapse_Model.v`: Model of the coarsening of triangulations: collapseEdges of CMshTriangleMesher (mesh/MshTriangleMesher_Imp.hpp 1503-1587). Simplifications: - Coordinates are exact rationals; the comparison of a length with 0.75 * collapseSize is decided on the squares. - [n] and [n'] are the numbers of cells per axis of the hash grids of mergeNodes and generateFaces (the code derives them from the numbers of points). - The first loop over positions is a loop over the ids in order (the id vector does not change while it runs).
* `Frac_Model.v`: Model of the cutting of polyhedra at a given fraction of their volume: the second clip and the second cut of CGeoPolyhedron (geometry/GeoPolyhedron_Imp.hpp 416-572), with the planes of geometry/GeoPlane_Imp.hpp. Simplifications: - Reals are rationals; a division by zero (total volume zero) gives zero where the code gets an infinity or no number. - The volume of the polyhedron is computed from its polygons (the code takes a remembered one if there is one, see Memo_Model). - aNormalizedTolerance is never used by the code and left out.
* `Hull_Model.v`: Convex hull of points in a plane: geometry/GeoConvexHull.hpp and geometry/GeoConvexHull_Imp.hpp, with the projection of a coordinate (geometry/GeoCoordinate_Imp.hpp 16-20). Arithmetic is exact over R, normalize() divides by the square root. The array sNewExtVertices with its counter k is a stack whose top is the head of a list.
* `Search_Model.v`: Search of boundary faces of a finite-volume mesh: fvm/FvmMeshSearch_Imp.hpp, on the hash grid (HashGrid_Model). Real is Q. The number of cells per axis is a parameter [n] as there. A face is its closed polyline and whether it has a pair (fvm/FvmFace_Imp.hpp, mesh/MshFace_Imp.hpp); the mesh is the list of its faces with their ids in the order of faceId(0), faceId(1), ... (fvm/FvmMesh_Imp.hpp 147-157, 177-184). The centroid kept by a face is that of its vertices (what happens if vertices change afterwards: Memo_Model).
* `Tet_Model.v`: Model of the improvement of tetrahedral meshes: relaxNodes, flipEdges23 and flipEdges32 of CMshTetrahedronMesher (mesh/MshTetrahedronMesher_Imp.hpp 1345-1905). Simplifications: - The quality of a tetrahedron (mesh/MshTetrahedron_Imp.hpp 25-50) is an arbitrary function of its four corners with rational values (every finite double is one). - Coordinates are exact rationals. - Loops over positions are loops over the ids in order (the id vectors of nodes and faces do not change while the loops run; that of the elements is read before the loops of relaxNodes and flipEdges32, and not read by that of flipEdges23).
* `Quad_Model.v`: Model of the improvement of meshes of quadrilaterals and triangles: flipEdges and relaxNodes of CMshQuadrilateralMesher (mesh/MshQuadrilateralMesher_Imp.hpp 882-1266). Simplifications: - The qualities of a triangle (mesh/MshTriangle_Imp.hpp 28-45) and of a quadrilateral (mesh/MshQuadrilateral_Imp.hpp 26-39) are arbitrary functions of the corners with rational values (every finite double is one). - Coordinates are exact rationals; normal().z() > aTolerance is decided exactly. - Loops over positions are loops over the ids in order (the id vectors do not change while the loops run).
* `Remesh_Model.v`: Improving triangulated surfaces in STL files: CStlUtils::flipEdges and CStlUtils::relaxVertices (stl/StlUtils_Imp.hpp). Surfaces, links and the quality of a facet are those of Surf_Model. Facets remember their normal and area once these are calculated (geometry/GeoTriangle_Imp.hpp 60-81), and copies of facets remember them too: this is represented here.
* `Rate_Model.v`: The quality of mesh elements (mesh/MshTriangle_Imp.hpp, MshQuadrilateral_Imp.hpp, MshTetrahedron_Imp.hpp, MshTriangularPrism_Imp.hpp) and its summary (mesh/MshMesh_Imp.hpp). Coordinates are exact rationals, qualities are real numbers without rounding; [None] stands for the not-a-number that 0.0 / 0.0 gives. The elements are built anew for every call, so nothing remembered by them (areas, volumes) plays a role here.
* `Resize_Model.v`: Model of CMshTriangleMesher::remesh (mesh/MshTriangleMesher_Imp.hpp 467-693): beams are cut in pieces of about the wanted size, and sides shared by two triangles that are longer than one and a half times that size are cut at their middle. Simplifications: - Coordinates are exact rationals; the rounding of length / size to the nearest number and the comparison of lengths are decided exactly from the squares; (j + 1) * de * n is the exact multiple (j + 1) / ne of the vector from end to end. - The faces kept for beams (490-501, 535-558, 566-570) and the loop over all faces at the end (667-679) are left out: they concern only faces of beams and numbers of partners, and generateFaces (681) then makes all faces anew without looking at them. - Ids that are -1 (no third node) are [None].
* `Field_Model.v`: Model of CPdeField (pde/PdeField_Imp.hpp 16-243), CPdeBoundaryCondition (pde/PdeBoundaryCondition_Imp.hpp 16-83) and the constant properties of CMatMaterial (material/MatMaterial_Imp.hpp 16-56): what is set on a field by any sequence of calls and read back. Reals are rationals, Integer is Z (no overflow). Not modelled: the mesh of the field, the four enumerations of the discretisation (plain fields with setter and getter), conditions and properties given by functions (m_conditionFunc, m_propertyFunc), a condition's location.
* `Fix_Model.v`: Model of applyFixedBoundary of CMshTriangleMesher (mesh/MshTriangleMesher_Imp.hpp 1154-1216), which takes the pair away from the faces of a surface mesh that lie on given edges. Reals are rationals; the number of cells [n] per axis of the hash grid is a parameter.
* `Naked_Model.v`: Model of collapseNakedEdges (mesh/MshMesh_Imp.hpp 810-864), which moves nodes along the shortest edges of the boundary. Reals are rationals; lengths are compared through their squares, without roots.
* `Inside_Model.v`: Model of contains and distance of CGeoTriangle for points (geometry/GeoTriangle_Imp.hpp 280-362), with the box and the normal of the same file and the planes of geometry/GeoPlane_Imp.hpp. Arithmetic is exact over R. The triangle is one whose vertices are not changed after the first question (what is remembered when they are: Memo_Model).
* `Cross_Model.v`: Model of intersects of CGeoTriangle, for lines and for triangles (geometry/GeoTriangle_Imp.hpp 97-278), with the cut of a line and a plane (geometry/GeoLine_Imp.hpp 165-197). Arithmetic is exact over R. The intersection of two lines, used for triangles in one plane only, is a parameter. What triangles remember is left out (Memo_Model), except that the normal is the zero vector before it is calculated.
* `Cent_Model.v`: Model of calculateFaceCentroid, calculateElementCentroid, faceCentroid and elementCentroid of CMshMesh (mesh/MshMesh_Imp.hpp 413-474). Reals are rationals. The vectors m_faceCentroid and m_elementCentroid are separate from the mesh: no other function changes them, not even reset; the copy constructor (36-63) does not copy them (not modelled here).
* `Meet_Model.v`: Model of contains and intersects of CGeoLine for two lines (geometry/GeoLine_Imp.hpp 216-402) and of the angle of two vectors (geometry/GeoVector_Imp.hpp 17-32). Arithmetic is exact over R; [eps] is std::numeric_limits<Real>::epsilon(). Lines are those made from two points: m_vector is the difference (Seg_Model tells when it is not).

## Findings: properties the code does not have

Each is a theorem with a concrete witness; the sentence is the comment above the theorem.

* `C01_duplicate_id_refuted`: Adding an id twice is outside the hypothesis, and rightly so: the id is then enumerated twice, and after one removal an enumerated id has no value.
* `C02_stale_index_refuted`: The index returned for a surviving node can lie beyond the number of nodes.
* `C05_face_links_refuted`: The face ids stored in the appended elements still name faces of the first mesh.
* `C06_pair_links_refuted`: Pair links survive as numbers, not as links: before, the partner of face at position 0 is the face at position 1; afterwards the link names no face at all.
* `C06_add_after_renumber_refuted`: Counters are not reset either: a node added after renumber() gets an index that is not its position.
* `C19_single_point_refuted`: All points in one place: the cell size is zero and build divides by it.
* `C19_far_query_refuted`: A query far outside the box: the cell index overflows int.
* `C19_rebuild_refuted`: build() a second time without reset(): a point is reported more than once.
* `C07_unordered_ids_refuted`: Without the order of ids an element can be left referring to a deleted node (5).
* `C08_keeps_one_refuted`: Neither of the two equal triangles 4 and 6 survives, and the position of 9 is out of date.
* `C11_short_element_refuted`: With too few nodes the element is read past its end.
* `C13_three_faces_refuted`: Three triangles on one edge: face 3 is paired with 0, but 0 with 6.
* `C13_rounding_refuted`: In binary64 the centres of one face seen from its two cells can be apart, so that the search with the default tolerance 0 misses the pair: x coordinates 0.1, 0.2, 0.3.
* `C17_general_hexahedron_refuted`: The restriction to parallelepipeds is needed: four of the eight corners are ignored.
* `C57_fills_box_refuted`: The cells need not fill the box: a unit box with cell size 3/10 is filled to 729/1000.
* `C21_overflow_refuted`: Beyond the bound the search can really stop early: 3077 boxes all meet the query, 2047 are found.
* `C21_minus_one_refuted`: The id -1 marks an empty node: such a box is never found.
* `C21_tolerance_refuted`: The tolerance is ignored: a box at distance 1 is not found with tolerance 5.
* `C22_remove_by_id_refuted`: Removing by id fails: removing the only box, whose id is 7, is undefined ...
* `C22_reuse_refuted`: ... and even with ids 0, 1, 2, ... a slot that was reused is cleared under its old ordinal: the second Remove 0 takes out box 1.
* `C23_neighbour_refuted`: A neighbour across a middle plane is missed.
* `C23_stored_point_refuted`: A query at a stored point with 1001 points in range finds none of them once an octant has been subdivided twice, and is undefined in a sparse octant (an element of an empty vector).
* `C23_sparse_octant_refuted`: A query at a stored point with 1001 points in range finds none of them once an octant has been subdivided twice, and is undefined in a sparse octant (an element of an empty vector).
* `C23_build_ends_refuted`: Building need not end: no depth of recursion suffices for these 1003 points.
* `C23_reset_refuted`: reset() keeps the old tree: using the object again is undefined, even with a single new point.
* `C23_rebuild_refuted`: Building twice: points are reported twice.
* `C27_setter_order_refuted`: The order of the two setters does not matter: false.
* `C28_remove_collinear_single_refuted`: removeCollinear keeps the first and the last vertex and exactly those interior vertices at which the original polyline turns, in order; a single vertex makes it write out of range.
* `C29_sort_chains_refuted`: sort() never extends a path backwards: a list that could be chained may stay unchained.
* `C58_segment_to_segment_refuted`: The returned distance is the distance between the two segments: false; the second point may lie off the second segment, and then the value is strictly smaller than every true distance.
* `C59_normal_length_refuted`: Without the unit-normal hypothesis the reported point can miss the plane that clip() cuts with.
* `C30_nonconvex_refuted`: Without convexity the triangles may overlap: in this simple (not self-crossing) polygon with area 18 the areas of the two triangles add up to 22.
* `C32_tiny_refuted`: Faces that are too small are not seen: a tetrahedron with edges of 10^-8 has volume 0.
* `C32_same_id_refuted`: Adding a polygon a second time under the same id counts it twice.
* `C33_cut_refuted`: The cube of volume 1 cut at a quarter of its height gives two parts of volume 1/4 each; the two clips give 1/4 and 3/4.
* `C33_clip_inward_refuted`: Cells numbered as the face routines of the mesh expect have inward faces here (negative volume), but the face closing a clip is always turned outward: the volumes of the parts are then wrong.
* `C60_area_positive_refuted`: The area is negative when the first corner is reflex.
* `C60_tiny_refuted`: A polygon whose corners all span less than the machine epsilon has area 0, whatever its extent: a square with sides of 10^-8.
* `C61_in_plane_refuted`: A polygon in the clipping plane counts as inside for both sides.
* `C31_general_hexahedron_refuted`: A twisted hexahedron (opposite faces not parallel) : the tetrahedra do not add up to volume().
* `C62_orientation_refuted`: Right-handed vertex order: not even the vertices are contained.
* `C63_axis_parallel_refuted`: A right-angled triangle with a horizontal first side: division by zero.
* `C63_space_refuted`: Points of a plane that is not z = const: the points are not on the circle.
* `C64_centre_refuted`: Elsewhere it does not even contain the centre.
* `C36_second_call_refuted`: The polygons of the subtrees are stored in the root; a second call returns them again.
* `C65_empty_solid_refuted`: A node without polygons has no plane: clipping to the empty solid reads an indeterminate number.
* `C66_warped_refuted`: A polygon that is not flat (normal by calculateNormal) is handed to the front child again and again.
* `C66_second_build_refuted`: Building again on the same tree replaces its root plane: the solid is lost.
* `C67_empty_refuted`: With an empty operand the result is undefined.
* `C41_source_after_elimination_refuted`: setSources after setElimination uses the old index in the reduced system: the source of the last unknown is out of range (and others end up at the wrong unknown).
* `C41_second_elimination_refuted`: A second setElimination eliminates again, by old indices.
* `C43_assign_refuted`: Assignment accumulates: after "system = c" the right-hand side is not c but the old one plus c.
* `C68_rows_refuted`: Multiplying by a vector scales rows but keeps the declared type.
* `C68_undeclared_refuted`: "c * field" alone has no declared type: solve() returns no values at all, and setting a prescribed value afterwards is out of range.
* `C44_linear_profile_refuted`: Hence the field after solve(), which puts the prescribed values at the end nodes themselves, is not the linear profile between them.
* `C44_one_node_refuted`: A mesh of one node has no neighbour: the operator writes outside the matrix.
* `C44_divergence_refuted`: ... but not at the ends, where it is the identity: a constant field has a non-zero divergence there.
* `C70_old_value_refuted`: But an element with a prescribed face forgets its own value: without any diffusion the old field should be kept, and is not.
* `C71_boundary_sign_refuted`: At the boundary it has: with the value 1 everywhere, also prescribed at both ends, the divergence is 2 in one element and -2 in the other.
* `C49_mass_refuted`: A closed cavity with a moving lid, walls flagged: the fluid inside should keep its mass, and does not.
* `C53_end_root_refuted`: So a root at the end of the interval can be missed, and the worse end returned.
* `C72_constant_refuted`: ... but not when evaluated with a variable: then the expression set before counts, and root finding works on that.
* `C72_variables_refuted`: A second variable that was defined before is lost: the expression no longer compiles.
* `C56_triangle_area_refuted`: But the 1- and 3-point rules take the triangle to have area 1 and 3: a constant is integrated to twice and six times its integral.
* `C56_beam_3_refuted`: The 3-point beam rule does not integrate constants: it gives 10/9 of a constant instead of twice.
* `C56_quadrilateral_8_refuted`: The 8-point quadrilateral rule lacks the centre and has a point twice: neither constants nor odd functions come out right.
* `C56_hexahedron_27_refuted`: The 27-point hexahedron rule has three points twice: an odd function does not integrate to zero.
* `C56_prism_refuted`: The prism rules: the reference prism has volume 1, a constant is integrated to 8, 3/4 and less than 2/5 of itself.
* `C50_direction_refuted`: So a particle with a velocity along y moves along z.
* `C50_rest_refuted`: A particle at rest on the lower side jumps to the upper side.
* `C50_period_refuted`: The part of the displacement beyond the side is lost: a particle that should reappear inside is put on the side.
* `C51_one_dimension_refuted`: In one dimension they have integral two.
* `C51_cubic_spline_refuted`: The cubic spline has integral four in every dimension.
* `C51_convex_gradient_refuted`: gradientW of the convex kernel is no multiple of the gradient: at distance h the factor is 7/8 ...
* `C51_convex_laplacian_refuted`: That of the convex kernel is negative near the edge of its support.
* `C73_time_step_refuted`: Two particles at distance h with the cubic spline, and a long time step: the value leaves the range.
* `C46_thickness_refuted`: The thickness enters diffusion but not storage: doubling it doubles the one and leaves the other.
* `C46_inverted_tetrahedron_refuted`: With two vertices exchanged (negative volume) the same tetrahedron diffuses backwards: v^T K v > 0.
* `C46_quadrilateral_mirror_refuted`: Storage is evaluated with the determinants of the points mirrored about the diagonal: a trapezoid with its mirror image about the line x = 0 gets different storage at its two lower corners.
* `C46_mesh_order_refuted`: But mesh hexahedra list the bottom face in a ring, then the top face (MshBasicMesher, the faces of CMshElement): the unit cube in that order gets total storage 1443375673/2500000000 (about 0.577) instead of its volume 1.
* `C46_prism_volume_refuted`: A prism with parallel edges e3 over the triangle o, o + e1, o + e2 has volume |e1 . (e2 x e3)| / 2; both matrices have three quarters of it.
* `C47_tetrahedron_negative_energy_refuted`: Beyond it (every v with 3v^2 + 3v > 2 below 1/2, such as 0.49) a stretch of the unit tetrahedron has negative energy.
* `C47_tetrahedron_symmetry_refuted`: The matrix is not symmetric unless v = 0: the force in x on the first vertex when the third moves in z is 0, the other way round it is not.
* `C47_inverted_tetrahedron_refuted`: With two vertices exchanged the stiffness is negative: stretching releases energy, even for v = 0.
* `C74_ids_from_one_refuted`: The same mesh with ids from 1: the storage term throws (elements from 1) or writes outside the right-hand side (nodes from 1); the laplacian accepts both.
* `C74_prism_storage_refuted`: A mesh of prisms has diffusion but no storage: the storage matrix is zero.
* `C75_sign_refuted`: But the exchange enters with the wrong sign. A unit beam is held at 1 at its start; its surroundings are at 0, so the other end should be between 0 and 1. With coefficient 2 the equation of that end is satisfied only by -1; with coefficient 1 by nothing.
* `C76_refinement_refuted`: The load does not see the size of the elements: the same bar carries twice the total load when its one beam is cut in two, and a bar ten times as long carries the same.
* `C37_no_zero_byte_refuted`: A valid binary file without a zero byte in bytes 84 to 339 makes the search for "vertex" run past the end of the buffer.
* `C37_taken_for_text_refuted`: A valid binary file whose first eight coordinate bytes happen to contain the letters "vertex" is taken for text and rejected.
* `C38_round_trip_refuted`: Five facets saved, an empty object after a successful load; a single text facet keeps what was there before.
* `C77_through_flow_refuted`: In the channel the flux given at the inlet has the opposite sign of the fluxes inside: the solver reports a mass error of twice the inflow, although its pressure system is solved exactly.
* `C77_hydrostatic_refuted`: A closed column of fluid under gravity, at rest, starts to move: walls get the pressure of the cell next to them, so the gradient there is half of what balances the weight.
* `C77_velocity_refuted`: A lid moving along the face between the cells: the pressure stays level and without influence, but the velocity after the step does not satisfy the momentum equations, because the contributions of the neighbours are computed with the velocity of the cell itself.
* `C55_inflow_refuted`: The flux the flow solver keeps at an inlet is positive for inflow, while the fraction equation takes positive for outflow: letting in fluid 1 removes fluid 1.
* `C55_upwind_refuted`: The flux between two cells is positive when the fluid leaves the owner, but donor and acceptor are chosen as if it were negative. With weight 0 (meant as upwind) a face takes the fraction of the cell downstream: here fluid 0 flows into a cell full of fluid 1 and the cell stays full.
* `C39_points_refuted`: Point elements are written but not read.
* `C39_data_refuted`: Field data is written with positions taken for ids: on a mesh whose single node has id 5, saving throws.
* `C39_precision_refuted`: 16 digits do not determine a double: two neighbouring doubles (0.3 and 0.1 + 0.2) have the same 16-digit decimal nearest to them, 0.3000000000000000, so at most one of them can survive.
* `C40_quadrilateral_refuted`: A quadrilateral is announced with five words and written as an empty line.
* `C40_removed_refuted`: After a node has been removed the numbers in the cells no longer are positions in the list of points: here a beam between the two points written refers to point 2.
* `C78_ids_refuted`: With ids 1, 2, 0 in this order the lines pair the value of one node with the place of another: the first value appears at the second node.
* `C79_range_refuted`: The documented range of the temperature is [0, 1]; in the middle of the hot side it is exceeded.
* `C80_no_convection_refuted`: Without convection the formula divides zero by zero instead of giving the linear profile.
* `C80_radiation_refuted`: The text of the equation names Tb and x, the names that are defined are Tb1 and x1, and the search clears the table anyway: whatever the data, the search ends at the lower end of its interval. At x = 0 the temperature should be Tb.
* `C81_initial3_refuted`: The initial temperature of the cube is not 1: the sign of the third index is missing. In the centre it starts above 3/2.
* `C83_descending_ids_refuted`: With descending ids a shared element is lost: triangle 0 has both nodes 0 and 1.
* `C84_hexahedron_refuted`: The hexahedron of a quadrilateral is twisted: no face of it stands on the first edge of the quadrilateral.
* `C85_crossing_refuted`: Of three triangles the last two cross, and everything is near everything; the check does not notice.
* `C86_symmetry_refuted`: One tetrahedron: the matrix is declared symmetric and is not.
* `C86_shell_refuted`: Triangles with three unknowns per node: entries outside the element matrix are read.
* `C86_quadrilateral_refuted`: A quadrilateral has no stiffness at all.
* `C88_one_stack_refuted`: One stack: every polygon is the segment from pole to pole.
* `C89_same_id_refuted`: A second addition under an id in use replaces the facet and lists it twice: the first facet is lost.
* `C91_ids_refuted`: When the ids do not count from 0 - for instance after a facet was removed - the links of the result lead to facets that do not exist: the same tetrahedron with ids 5, 6, 7, 8.
* `C91_size_refuted`: Edges longer than the size can remain even on a closed surface of good facets, since every facet is looked at once.
* `C91_boundary_refuted`: A facet whose longest edge is on the boundary is never split, whatever its size.
* `C90_crossing_refuted`: Edges are compared by their middles only: two facets without a common vertex whose edges cross in the middle become neighbours.
* `C93_outward_refuted`: The variant which is asked for an outward or inward orientation loses the first facet: it is overwritten with the last one, whatever the ray meets, and a closed surface is closed no more.
* `C92_orientation_refuted`: Facets which are connected but not consistently oriented, here the corner tetrahedron with one facet turned over: triangles with wrong vertices.
* `C92_fan_refuted`: A fan of 101 facets around one point: after 100 facets the walk stops, and neighbours do not share a node.
* `C94_reset_refuted`: reset() of a tetrahedron does not forget the centroid: an object used again for another tetrahedron keeps reporting the centroid of the first one.
* `C94_empty_reset_refuted`: reset() of a hexahedron or a prism does nothing: the old vertices stay in front of the new ones, and the volume stays that of the first solid even when its calculation is forced.
* `C94_contains_refuted`: A tetrahedron whose vertices have been moved after contains() was asked once rejects its own inner points, because the box remembered is the old one.
* `C95_ghosts_refuted`: Facets left over still name removed facets as neighbours: checking the edges once more fails.
* `C95_duplicate_refuted`: A facet stored twice is not removed: the search structure still holds it after its removal, and the next look at it throws.
* `C95_concentric_refuted`: Of two facets with the same middle but different areas one is removed: it is compared with itself.
* `C96_leftover_refuted`: Points given for one call stay candidates in the next one (the list is never cleared): a square that is meshed without trouble by a new mesher makes a mesher fail that has meshed another region with an unused interior point.
* `C96_other_elements_refuted`: The neighbours of the beams are counted among all elements: with one triangle in front of the same four beams, meshing fails.
* `C97_without_faces_refuted`: On a mesh whose faces were never generated nothing is recognised as boundary: corners of the region move and area is lost.
* `C98_uniform_refuted`: A uniform temperature does not stay if the cells are not of volume 1: with walls as warm as the fluid at rest the temperature rises from 1 to above 7 in a step, because the heat conducted from the boundary is divided by the volume.
* `C98_order_refuted`: Temperatures depend on the order in which a cell lists its faces, and heat is made or lost inside, unless the conductivity is 1 (that of the boundary): the conductivity of a cell is averaged again and again, so the two cells of a face use different ones.
* `C99_tetrahedron_refuted`: In a tetrahedron whose last two corners have different velocities along x, a uniform field is carried away: its convective term is not zero.
* `C99_stabilisation_refuted`: The term along the stream is subtracted: in a uniform stream the convective matrix takes away energy of the wrong sign (a negative amount of diffusion along the stream), growing with the time step.
* `C99_gravity_refuted`: Gravity does not see the size of the elements: from rest, with nothing fixed, a uniform velocity c solves the first equation on a triangle only if c is 3 g dt divided by the area, so bodies fall with the given acceleration only in triangles of area 3.
* `C99_density_refuted`: The density enters the correction but not the pressure: two fluids with the same kinematic viscosity (none), one twice as dense, leave the same state with different velocities.
* `C99_plane_refuted`: Above the plane z = 0 the triangle works in axes of its own: for the field x, whose derivative along x is 1, the gradient along x of this triangle is zero. And with the corners clockwise the gradient points backwards.
* `C100_area_refuted`: With a size above the extent of the square the node goes from corner to corner and half of the square is lost: triangles that do not become flat are deleted too.
* `C100_overturn_refuted`: In the dart the node goes to the corner next to it, and one of the triangles is turned over.
* `C33_fraction_cut_refuted`: So the parts of a quarter of the cube and of the rest have volumes 1/4 and 0.
* `C101_repeated_refuted`: A point given twice is returned though it lies strictly inside the triangle of three others: two equal entries on the stack are never removed.
* `C101_vertical_refuted`: In a vertical plane the hull can be wrong: here the five distinct points of the wall x = 0 are all projected onto a line, because the matrix is not transposed, so the centre of the square is returned, even twice.
* `C101_in_line_refuted`: If the first three points are in line, the other points are projected onto that line: a point strictly inside is returned.
* `C102_build_again_refuted`: build() a second time without set(): faces are returned more than once.
* `C102_far_refuted`: A point far away: the search is undefined (a cell index overflows); nothing is found near by either.
* `C102_one_place_refuted`: All boundary faces with one centroid: build() is undefined.
* `C103_unused_node_refuted`: A node of no element is moved towards the origin, though nothing is improved by that.
* `C103_elsewhere_refuted`: The result depends on where the mesh lies: the inner node of this mesh moves, but if the same mesh lies elsewhere it does not (the centre is computed wrongly: for each tetrahedron the whole sum, not only what this one adds, is divided by four and multiplied by the volume).
* `C104_hole_refuted`: If a tetrahedron has two such edges the result may have a hole: which elements have an edge is found out before the first flip, and only the element visited, not the other two, is tested for having been flipped. In this mesh, 8 and two others are replaced, and then what has become of 8 is overwritten by the flip of the elements at the opposite edge, and deleted.
* `C105_dent_refuted`: Moving a node can turn a quadrilateral over at a corner: only the triangle of the first three nodes of each element is looked at.
* `C105_start_refuted`: Whether a node is moved depends on the corner with which the list of corners of a quadrilateral begins: the face after a face is counted modulo three.
* `C106_links_refuted`: After a call the links of the facets are no longer right, nor are the remembered normals: the connectivity has to be generated again before the surface is used further.
* `C106_fold_refuted`: A facet can be turned over: the new facets are copies which remember the normals and areas of the old ones, so that the tests of the change of normals and of the total area always pass. Here two facets in a plane, both looking up, form a quadrilateral which is not convex; afterwards one looks down and the total area has grown from 312 to 528.
* `C107_fold_refuted`: Once the normals are remembered (checkEdges calculates them all) the test of the change of normals always passes: a facet can be turned over. Here a quadrilateral with a dent is made of four facets in a plane, all looking up; afterwards two look down.
* `C107_numbers_refuted`: If the facets are not numbered 0, 1, 2, ... (the numbers are those of the elements of the mesh the surface is made from) the walk around a vertex is ended at the wrong facet: only some of the facets meeting in a vertex are changed, and the surface is torn. Here a closed tetrahedron with facets 1, 2, 3, 4.
* `C108_small_refuted`: A triangle with all sides at most 1.5e-8 long, even one whose three corners are the same point, has quality 4/3: CGeoVector::angle answers a right angle for short vectors. In the minimum over a mesh it counts as perfect.
* `C108_flat_prism_refuted`: The quality of a prism looks only at its two ends: a prism without height, both ends the same equilateral triangle, is rated perfect.
* `C108_reflex_refuted`: A plane quadrilateral with a reflex corner is rated better (4/13) than a rectangle 1 by 8 (16/65): the rating does not tell whether an element is valid.
* `C108_forgotten_refuted`: A quadrilateral that is a single point has the quality 0/0; the minimum and the maximum then start anew with the next element, so that a flat triangle before it is forgotten: a mesh with a flat triangle (quality 0) is reported with minimum 1.
* `C109_quadrilateral_refuted`: A neighbour that is a quadrilateral is treated like a triangle: three of its four corners are overwritten and half of the area is lost.
* `C109_numbers_refuted`: With other element ids than 0, 1, ... the flags of the elements are looked for outside of their vector.
* `C109_boundary_refuted`: Sides on the boundary are never cut, however long they are.
* `C110_zero_refuted`: A size of 0 asks for infinitely many pieces: the number cannot be represented and the conversion is undefined.
* `C111_dofs_refuted`: Before setNbDofs a field has 0 unknowns per node, and the fixed values of all nodes go to one place: fixing node 1 replaces what was fixed at node 0. Likewise an unknown beyond the number of unknowns: with one per node, fixing unknown 1 of node 0 fixes node 1.
* `C111_asking_refuted`: Asking for the condition of a side without one does not throw, as it does for nodes and faces: it creates a condition of fixed value there, and elementHasBC holds from then on. Asking a condition for a value it was not given answers 0, and is given from then on.
* `C111_size_refuted`: Changing the size loses all values, also when it grows: reading one set before is reading uninitialised memory.
* `C112_centre_refuted`: Only centres are compared: an edge across the diagonal, which is no face of the mesh, also takes the pair away from it.
* `C112_far_refuted`: An edge far away from the surface has no defined outcome: the number of its cell does not fit an int.
* `C113_chain_refuted`: Short edges that share nodes are opened again by moving their second node: a triangle all of whose sides are within the tolerance keeps two of them, of length 5.
* `C114_edge_refuted`: Finding: the middle of a side is answered with "internal". The sum compared is the one with the smallest part, not the largest.
* `C114_plane_refuted`: Finding: the height over the plane is not asked. In the box of a triangle that is not parallel to the axes, a point 1/2 away from the plane (times the square root of 1/2) is contained.
* `C114_side_refuted`: Finding: beside a side the distance is the one to the nearest vertex and not to the side: from (1/2,-1,0) it is more than the distance 1 to the middle of the side below.
* `C115_before_refuted`: Finding: intersects for a line does not calculate the normal. On a triangle on which calculateNormal (or another function that needs the normal) was not called before, the normal is the zero vector and no line intersects.
* `C115_opposite_refuted`: Finding: triangles in one plane with opposite orientation count as being in different planes (the offsets d1 and d2 of the planes have opposite signs), unless the plane goes through the origin: two that overlap, none containing the other, do not intersect.
* `C116_again_refuted`: Finding: calculated again after elements were removed (which leaves the indices of the others as they are), the centroid of an element is that of another one: with element 7 removed, element 8 gets the centroid of element 9, and element 9 has none (an exception).
* `C117_start_refuted`: Finding: a line does not contain its own start (the angle to the zero vector counts as a right angle).
* `C117_turned_refuted`: Finding: so the line of the case turned round, which begins on the middle of the other, does not meet it.
* `C117_point_refuted`: Finding: for two lines upon each other with a common end the point handed back is the start of the first, which need not be on the second.
* `C117_apart_refuted`: Finding: two parallel lines that stay more than half a unit apart everywhere are said to meet as IT_INTERNAL with a tolerance of 1/1000, because points are looked for within one degree instead of within the tolerance.

## Assumptions

`Print Assumptions` prints "Closed under the global context" (no axioms at all) for each of these 390 theorems:

`C01_insertion`, `C01_duplicate_id_refuted`, `C02_removal`, `C02_stale_index_refuted`, `C03_next_id_fresh`,
`C04_reachable_wf`, `C04_copy`, `C05_addMesh`, `C05_face_links_refuted`, `C06_renumber`,
`C06_pair_links_refuted`, `C06_add_after_renumber_refuted`, `C24_least_box`, `C24_order_independent`,
`C24_shrink_undoes_grow`, `C24_contains`, `C24_contains_box`, `C24_intersects`, `C24_grow_keeps_midpoint`,
`C10_mesh_box`, `C10_element_box`, `C20_counting_sort`, `C19_search_exact`, `C19_single_point_refuted`,
`C19_far_query_refuted`, `C19_rebuild_refuted`, `C07_merge_nodes`, `C07_unordered_ids_refuted`,
`C08_merge_elements`, `C08_keeps_one_refuted`, `C09_remove_invalid_elements`, `C09_remove_dangling_nodes`,
`C09_references_stay_valid`, `C11_closed_cells`, `C11_flat_cells`, `C11_short_element_refuted`,
`C12_invert_element`, `C12_invert_mesh_twice`, `C13_face_pairing`, `C13_three_faces_refuted`,
`C13_rounding_refuted`, `C14_boundary`, `C14_watertight`, `C14_boundary_loops`, `C15_hexahedron`,
`C15_quadrilateral`, `C15_line`, `C16_hexahedra_conforming`, `C16_quadrilaterals_conforming`,
`C16_line_conforming`, `C17_hexahedra_fill`, `C17_quadrilaterals_fill`, `C17_beams_fill`,
`C17_general_hexahedron_refuted`, `C18_tetrahedra_conforming`, `C18_triangles_conforming`, `C57_box`,
`C57_box_conforming`, `C57_fills_box_refuted`, `C21_search_exact`, `C21_reset`, `C21_overflow_refuted`,
`C21_minus_one_refuted`, `C21_tolerance_refuted`, `C22_remove_by_ordinal`, `C22_history`, `C22_defined`,
`C22_remove_by_id_refuted`, `C22_reuse_refuted`, `C23_sound`, `C23_small_sets`, `C23_neighbour_refuted`,
`C23_stored_point_refuted`, `C23_sparse_octant_refuted`, `C23_build_ends_refuted`, `C23_reset_refuted`,
`C23_rebuild_refuted`, `C25_clip_exact`, `C25_clip_outside`, `C25_clip_always`, `C26_nearest_point`,
`C26_nearest_point_tolerance`, `C26_fails_iff_short`, `C27_consistent_after_end`, `C27_invert_swaps`,
`C27_start_last_stale`, `C27_stale_invert`, `C27_setter_order_refuted`, `C28_invert_involutive`,
`C28_remove_duplicates`, `C28_remove_collinear`, `C28_remove_collinear_single_refuted`, `C28_insert_remove`,
`C28_set_vertex`, `C29_sort`, `C29_sort_path`, `C29_sort_chains_refuted`, `C29_invert`, `C58_segment_to_line`,
`C58_fails_iff_parallel`, `C58_segment_to_segment_refuted`, `C59_plane_intersection`,
`C59_normal_length_refuted`, `C30_triangulation`, `C30_convex`, `C30_nonconvex_refuted`, `C32_volume`,
`C32_translation`, `C32_tetrahedron`, `C32_parallelepiped`, `C32_prism`, `C32_tiny_refuted`,
`C32_same_id_refuted`, `C33_cut_same`, `C33_cut_refuted`, `C33_clip_inward_refuted`, `C60_polygon_measure`,
`C60_polygon_unseen`, `C60_area_positive_refuted`, `C60_tiny_refuted`, `C61_clip_sound`, `C61_clip_keeps`,
`C61_clip_areas`, `C61_in_plane_refuted`, `C31_hexahedron`, `C31_tiling`, `C31_quadrilateral`,
`C31_tetrahedron_swaps`, `C31_tetrahedron_translation`, `C31_tetrahedron_flat`, `C31_tetrahedron_value`,
`C31_general_hexahedron_refuted`, `C62_contains`, `C62_contains_never`, `C62_orientation_refuted`,
`C34_sphere`, `C34_flat`, `C63_circle`, `C63_circle_defined`, `C63_axis_parallel_refuted`,
`C63_space_refuted`, `C64_sphere_box`, `C64_centre_refuted`, `C35_sides`, `C35_unchanged`, `C35_exact`,
`C36_invert_twice`, `C36_invert_complement`, `C36_all_polygons`, `C36_second_call_refuted`, `C65_clip_sound`,
`C65_clip_complete`, `C65_kept_not_inside`, `C65_empty_solid_refuted`, `C66_build`, `C66_convex_body`,
`C66_cube`, `C66_warped_refuted`, `C66_second_build_refuted`, `C67_add_sound`, `C67_subtract_sound`,
`C67_intersect_sound`, `C67_add_bodies`, `C67_subtract_bodies`, `C67_intersect_bodies`, `C67_empty_refuted`,
`C41_equivalence`, `C41_solve`, `C41_sources`, `C41_source_after_elimination_refuted`,
`C41_second_elimination_refuted`, `C42_penalty`, `C42_error`, `C42_solve`, `C42_other_methods`, `C43_sum`,
`C43_scale`, `C43_rows`, `C43_common_solution`, `C43_assign`, `C43_assign_refuted`, `C43_real`,
`C68_declared`, `C68_penalty_elimination`, `C68_rows_refuted`, `C68_undeclared_refuted`, `C44_shape`,
`C44_inner`, `C44_ends`, `C44_exact`, `C44_dirichlet`, `C44_linear_profile_refuted`, `C44_one_node_refuted`,
`C44_divergence`, `C44_divergence_refuted`, `C69_unique`, `C69_bounds`, `C69_all_steps`, `C69_step_exists`,
`C45_balance`, `C45_constants`, `C45_conservation`, `C45_dissipation`, `C70_step`, `C70_bounds`,
`C70_all_steps`, `C70_step_exists`, `C70_old_value_refuted`, `C71_balance`, `C71_uniform`,
`C71_boundary_sign_refuted`, `C54_control_volumes`, `C48_moments`, `C48_collision`, `C48_opposite`,
`C48_step`, `C49_rest`, `C49_frame_flags_ignored`, `C49_mass_refuted`, `C52_bisection`, `C52_error`,
`C52_no_sign_change`, `C53_brent`, `C53_no_sign_change`, `C53_end_root_refuted`, `C72_constant`,
`C72_evaluate`, `C72_constant_refuted`, `C72_variables_refuted`, `C56_beam`, `C56_quadrilateral`,
`C56_hexahedron`, `C56_affine`, `C56_triangle`, `C56_triangle_7`, `C56_triangle_area_refuted`,
`C56_beam_3_refuted`, `C56_quadrilateral_8_refuted`, `C56_hexahedron_27_refuted`, `C56_prism_refuted`,
`C56_other_counts`, `C56_bem`, `C37_binary_round_trip`, `C37_ascii_round_trip`, `C37_no_zero_byte_refuted`,
`C37_taken_for_text_refuted`, `C38_short_binary_ignored`, `C38_short_text_ignored`, `C38_round_trip_refuted`,
`C77_mass_error`, `C77_mass_conserved`, `C77_pressure_compatible`, `C77_rest`, `C77_through_flow_refuted`,
`C77_hydrostatic_refuted`, `C77_velocity_refuted`, `C77_pressure_level`, `C55_fraction_bounded`,
`C55_mixture_between`, `C55_conserved`, `C55_uniform`, `C55_beta_bounded`, `C55_correction_bounded`,
`C55_correction_idle`, `C55_courant_nonneg`, `C55_inflow_refuted`, `C55_upwind_refuted`, `C39_saves`,
`C39_round_trip`, `C39_points_refuted`, `C39_data_refuted`, `C39_values`, `C39_precision_refuted`,
`C40_cells`, `C40_corners`, `C40_types`, `C40_values`, `C40_quadrilateral_refuted`, `C40_removed_refuted`,
`C40_digits`, `C78_rows`, `C78_ids_refuted`, `C80_radiation_refuted`, `C83_sharing_node`, `C83_sharing_two`,
`C83_next_ids_ascend`, `C83_descending_ids_refuted`, `C84_extrude`, `C84_layers`, `C84_flat`, `C84_sides`,
`C84_hexahedron_refuted`, `C85_open`, `C85_crossing`, `C85_crossing_refuted`, `C86_shell_refuted`,
`C89_storage`, `C89_append`, `C89_same_id_refuted`, `C90_connectivity`, `C90_glued`, `C90_crossing_refuted`,
`C93_orientation`, `C93_connected`, `C93_outward_refuted`, `C92_mesh`, `C92_welded`,
`C92_orientation_refuted`, `C92_fan_refuted`, `C92_round_trip`, `C94_remembered`, `C94_forced`, `C94_kept`,
`C94_reset`, `C94_contains`, `C94_reset_refuted`, `C94_empty_reset_refuted`, `C94_contains_refuted`,
`C95_statistics`, `C95_edges`, `C95_duplicate_refuted`, `C95_concentric_refuted`, `C96_boundary`,
`C96_upright`, `C96_area`, `C96_open`, `C96_leftover_refuted`, `C96_other_elements_refuted`, `C97_faces`,
`C97_flip`, `C97_relax`, `C97_without_faces_refuted`, `C98_range`, `C98_uniform`, `C98_conserved`,
`C98_with_flow`, `C98_uniform_refuted`, `C98_order_refuted`, `C100_collapse`, `C100_nothing_short`,
`C100_area_refuted`, `C100_overturn_refuted`, `C33_fraction_clip`, `C33_fraction_ends`,
`C33_fraction_other_empty`, `C33_fraction_cut_refuted`, `C102_search`, `C102_build_again_refuted`,
`C102_far_refuted`, `C102_one_place_refuted`, `C103_faces`, `C103_flip`, `C103_relax`,
`C103_unused_node_refuted`, `C103_elsewhere_refuted`, `C104_flip`, `C104_hole_refuted`, `C105_faces`,
`C105_flip`, `C105_relax`, `C105_dent_refuted`, `C105_start_refuted`, `C109_faces`, `C109_triangles`,
`C109_quadrilateral_refuted`, `C109_numbers_refuted`, `C109_boundary_refuted`, `C110_beams`, `C110_once`,
`C110_zero_refuted`, `C111_apart`, `C111_latest`, `C111_presence`, `C111_throws`, `C111_values`, `C111_added`,
`C111_dofs_refuted`, `C111_asking_refuted`, `C111_size_refuted`, `C112_fixed`, `C112_edges`,
`C112_centre_refuted`, `C112_far_refuted`, `C113_places`, `C113_chain_refuted`, `C116_elements`, `C116_faces`,
`C116_removed`, `C116_rebuilt`, `C116_again_refuted`

The following use standard library axioms:

* `C50_in_domain`: ClassicalDedekindReals.sig_forall_dec, FunctionalExtensionality.functional_extensionality_dep
* `C50_motion`: ClassicalDedekindReals.sig_forall_dec, FunctionalExtensionality.functional_extensionality_dep
* `C50_direction_refuted`: ClassicalDedekindReals.sig_not_dec, ClassicalDedekindReals.sig_forall_dec, FunctionalExtensionality.functional_extensionality_dep
* `C50_rest_refuted`: ClassicalDedekindReals.sig_not_dec, ClassicalDedekindReals.sig_forall_dec, FunctionalExtensionality.functional_extensionality_dep
* `C50_period_refuted`: ClassicalDedekindReals.sig_not_dec, ClassicalDedekindReals.sig_forall_dec, FunctionalExtensionality.functional_extensionality_dep
* `C51_kernels`: ClassicalDedekindReals.sig_not_dec, ClassicalDedekindReals.sig_forall_dec, FunctionalExtensionality.functional_extensionality_dep, Classical_Prop.classic
* `C51_normalised`: ClassicalDedekindReals.sig_not_dec, ClassicalDedekindReals.sig_forall_dec, FunctionalExtensionality.functional_extensionality_dep, Classical_Prop.classic
* `C51_one_dimension_refuted`: ClassicalDedekindReals.sig_not_dec, ClassicalDedekindReals.sig_forall_dec, FunctionalExtensionality.functional_extensionality_dep, Classical_Prop.classic
* `C51_cubic_spline_refuted`: ClassicalDedekindReals.sig_not_dec, ClassicalDedekindReals.sig_forall_dec, FunctionalExtensionality.functional_extensionality_dep, Classical_Prop.classic
* `C51_gradient`: ClassicalDedekindReals.sig_not_dec, ClassicalDedekindReals.sig_forall_dec, FunctionalExtensionality.functional_extensionality_dep, Classical_Prop.classic
* `C51_convex_gradient_refuted`: ClassicalDedekindReals.sig_not_dec, ClassicalDedekindReals.sig_forall_dec, FunctionalExtensionality.functional_extensionality_dep, Classical_Prop.classic
* `C51_laplacian_sign`: ClassicalDedekindReals.sig_not_dec, ClassicalDedekindReals.sig_forall_dec, FunctionalExtensionality.functional_extensionality_dep
* `C51_convex_laplacian_refuted`: ClassicalDedekindReals.sig_not_dec, ClassicalDedekindReals.sig_forall_dec, FunctionalExtensionality.functional_extensionality_dep
* `C73_density`: ClassicalDedekindReals.sig_not_dec, ClassicalDedekindReals.sig_forall_dec, FunctionalExtensionality.functional_extensionality_dep, Classical_Prop.classic
* `C73_maximum_principle`: ClassicalDedekindReals.sig_not_dec, ClassicalDedekindReals.sig_forall_dec, FunctionalExtensionality.functional_extensionality_dep, Classical_Prop.classic
* `C73_prescribed`: ClassicalDedekindReals.sig_forall_dec, FunctionalExtensionality.functional_extensionality_dep
* `C73_uniform`: ClassicalDedekindReals.sig_forall_dec, FunctionalExtensionality.functional_extensionality_dep
* `C73_time_step_refuted`: ClassicalDedekindReals.sig_not_dec, ClassicalDedekindReals.sig_forall_dec, FunctionalExtensionality.functional_extensionality_dep
* `C46_beam_laplacian`: ClassicalDedekindReals.sig_not_dec, ClassicalDedekindReals.sig_forall_dec, FunctionalExtensionality.functional_extensionality_dep
* `C46_beam_mass`: ClassicalDedekindReals.sig_not_dec, ClassicalDedekindReals.sig_forall_dec, FunctionalExtensionality.functional_extensionality_dep, Classical_Prop.classic
* `C46_triangle_laplacian`: ClassicalDedekindReals.sig_not_dec, ClassicalDedekindReals.sig_forall_dec, FunctionalExtensionality.functional_extensionality_dep
* `C46_triangle_mass`: ClassicalDedekindReals.sig_not_dec, ClassicalDedekindReals.sig_forall_dec, FunctionalExtensionality.functional_extensionality_dep, Classical_Prop.classic
* `C46_thickness_refuted`: ClassicalDedekindReals.sig_not_dec, ClassicalDedekindReals.sig_forall_dec, FunctionalExtensionality.functional_extensionality_dep
* `C46_tetrahedron_laplacian`: ClassicalDedekindReals.sig_forall_dec, FunctionalExtensionality.functional_extensionality_dep
* `C46_tetrahedron_mass`: ClassicalDedekindReals.sig_not_dec, ClassicalDedekindReals.sig_forall_dec, FunctionalExtensionality.functional_extensionality_dep, Classical_Prop.classic
* `C46_inverted_tetrahedron_refuted`: ClassicalDedekindReals.sig_forall_dec, FunctionalExtensionality.functional_extensionality_dep
* `C46_quadrilateral`: ClassicalDedekindReals.sig_not_dec, ClassicalDedekindReals.sig_forall_dec, FunctionalExtensionality.functional_extensionality_dep
* `C46_quadrilateral_mirror_refuted`: ClassicalDedekindReals.sig_not_dec, ClassicalDedekindReals.sig_forall_dec, FunctionalExtensionality.functional_extensionality_dep
* `C46_hexahedron`: ClassicalDedekindReals.sig_forall_dec, FunctionalExtensionality.functional_extensionality_dep
* `C46_parallelepiped`: ClassicalDedekindReals.sig_forall_dec, FunctionalExtensionality.functional_extensionality_dep
* `C46_mesh_order_refuted`: ClassicalDedekindReals.sig_forall_dec, FunctionalExtensionality.functional_extensionality_dep
* `C46_prism`: ClassicalDedekindReals.sig_forall_dec, FunctionalExtensionality.functional_extensionality_dep
* `C46_prism_volume_refuted`: ClassicalDedekindReals.sig_forall_dec, FunctionalExtensionality.functional_extensionality_dep
* `C47_triangle`: ClassicalDedekindReals.sig_not_dec, ClassicalDedekindReals.sig_forall_dec, FunctionalExtensionality.functional_extensionality_dep
* `C47_tetrahedron_rigid`: ClassicalDedekindReals.sig_forall_dec, FunctionalExtensionality.functional_extensionality_dep
* `C47_tetrahedron_energy`: ClassicalDedekindReals.sig_forall_dec, FunctionalExtensionality.functional_extensionality_dep
* `C47_tetrahedron_negative_energy_refuted`: ClassicalDedekindReals.sig_forall_dec, FunctionalExtensionality.functional_extensionality_dep
* `C47_tetrahedron_symmetry_refuted`: ClassicalDedekindReals.sig_forall_dec, FunctionalExtensionality.functional_extensionality_dep
* `C47_inverted_tetrahedron_refuted`: ClassicalDedekindReals.sig_forall_dec, FunctionalExtensionality.functional_extensionality_dep
* `C74_laplacian`: ClassicalDedekindReals.sig_not_dec, ClassicalDedekindReals.sig_forall_dec, FunctionalExtensionality.functional_extensionality_dep
* `C74_linear_fields`: ClassicalDedekindReals.sig_not_dec, ClassicalDedekindReals.sig_forall_dec, FunctionalExtensionality.functional_extensionality_dep
* `C74_ddt`: ClassicalDedekindReals.sig_not_dec, ClassicalDedekindReals.sig_forall_dec, FunctionalExtensionality.functional_extensionality_dep, Classical_Prop.classic
* `C74_implicit_step`: ClassicalDedekindReals.sig_not_dec, ClassicalDedekindReals.sig_forall_dec, FunctionalExtensionality.functional_extensionality_dep, Classical_Prop.classic
* `C74_ids_from_one_refuted`: ClassicalDedekindReals.sig_not_dec, ClassicalDedekindReals.sig_forall_dec, FunctionalExtensionality.functional_extensionality_dep
* `C74_prism_storage_refuted`: ClassicalDedekindReals.sig_not_dec, ClassicalDedekindReals.sig_forall_dec, FunctionalExtensionality.functional_extensionality_dep
* `C75_ambient_equilibrium`: ClassicalDedekindReals.sig_not_dec, ClassicalDedekindReals.sig_forall_dec, FunctionalExtensionality.functional_extensionality_dep
* `C75_sign_refuted`: ClassicalDedekindReals.sig_not_dec, ClassicalDedekindReals.sig_forall_dec, FunctionalExtensionality.functional_extensionality_dep
* `C76_source`: ClassicalDedekindReals.sig_not_dec, ClassicalDedekindReals.sig_forall_dec, FunctionalExtensionality.functional_extensionality_dep
* `C76_refinement_refuted`: ClassicalDedekindReals.sig_forall_dec, FunctionalExtensionality.functional_extensionality_dep
* `C79_steady1`: ClassicalDedekindReals.sig_not_dec, ClassicalDedekindReals.sig_forall_dec, FunctionalExtensionality.functional_extensionality_dep, Classical_Prop.classic
* `C79_steady2`: ClassicalDedekindReals.sig_not_dec, ClassicalDedekindReals.sig_forall_dec, FunctionalExtensionality.functional_extensionality_dep, Classical_Prop.classic
* `C79_steady3`: ClassicalDedekindReals.sig_not_dec, ClassicalDedekindReals.sig_forall_dec, FunctionalExtensionality.functional_extensionality_dep, Classical_Prop.classic
* `C79_hot_side`: ClassicalDedekindReals.sig_not_dec, ClassicalDedekindReals.sig_forall_dec, FunctionalExtensionality.functional_extensionality_dep, Classical_Prop.classic
* `C79_range_refuted`: ClassicalDedekindReals.sig_not_dec, ClassicalDedekindReals.sig_forall_dec, FunctionalExtensionality.functional_extensionality_dep, Classical_Prop.classic
* `C80_fin`: ClassicalDedekindReals.sig_not_dec, ClassicalDedekindReals.sig_forall_dec, FunctionalExtensionality.functional_extensionality_dep, Classical_Prop.classic
* `C80_no_convection_refuted`: ClassicalDedekindReals.sig_not_dec, ClassicalDedekindReals.sig_forall_dec, FunctionalExtensionality.functional_extensionality_dep
* `C81_transient1`: ClassicalDedekindReals.sig_not_dec, ClassicalDedekindReals.sig_forall_dec, FunctionalExtensionality.functional_extensionality_dep, Classical_Prop.classic
* `C81_transient2`: ClassicalDedekindReals.sig_not_dec, ClassicalDedekindReals.sig_forall_dec, FunctionalExtensionality.functional_extensionality_dep, Classical_Prop.classic
* `C81_transient3`: ClassicalDedekindReals.sig_not_dec, ClassicalDedekindReals.sig_forall_dec, FunctionalExtensionality.functional_extensionality_dep, Classical_Prop.classic
* `C81_initial3_refuted`: ClassicalDedekindReals.sig_not_dec, ClassicalDedekindReals.sig_forall_dec, FunctionalExtensionality.functional_extensionality_dep, Classical_Prop.classic
* `C82_burgers`: ClassicalDedekindReals.sig_not_dec, ClassicalDedekindReals.sig_forall_dec, FunctionalExtensionality.functional_extensionality_dep, Classical_Prop.classic
* `C86_plane`: ClassicalDedekindReals.sig_not_dec, ClassicalDedekindReals.sig_forall_dec, FunctionalExtensionality.functional_extensionality_dep
* `C86_only_rigid`: ClassicalDedekindReals.sig_not_dec, ClassicalDedekindReals.sig_forall_dec, FunctionalExtensionality.functional_extensionality_dep
* `C86_unique`: ClassicalDedekindReals.sig_not_dec, ClassicalDedekindReals.sig_forall_dec, FunctionalExtensionality.functional_extensionality_dep
* `C86_space`: ClassicalDedekindReals.sig_not_dec, ClassicalDedekindReals.sig_forall_dec, FunctionalExtensionality.functional_extensionality_dep
* `C86_symmetry_refuted`: ClassicalDedekindReals.sig_not_dec, ClassicalDedekindReals.sig_forall_dec, FunctionalExtensionality.functional_extensionality_dep
* `C86_quadrilateral_refuted`: ClassicalDedekindReals.sig_forall_dec
* `C87_cylinder`: ClassicalDedekindReals.sig_not_dec, ClassicalDedekindReals.sig_forall_dec, FunctionalExtensionality.functional_extensionality_dep, Classical_Prop.classic
* `C88_sphere`: ClassicalDedekindReals.sig_not_dec, ClassicalDedekindReals.sig_forall_dec, FunctionalExtensionality.functional_extensionality_dep, Classical_Prop.classic
* `C88_one_stack_refuted`: ClassicalDedekindReals.sig_not_dec, ClassicalDedekindReals.sig_forall_dec, FunctionalExtensionality.functional_extensionality_dep
* `C91_split`: ClassicalDedekindReals.sig_not_dec, ClassicalDedekindReals.sig_forall_dec, FunctionalExtensionality.functional_extensionality_dep, Classical_Prop.classic
* `C91_quality`: ClassicalDedekindReals.sig_not_dec, ClassicalDedekindReals.sig_forall_dec, FunctionalExtensionality.functional_extensionality_dep, Classical_Prop.classic
* `C91_ids_refuted`: ClassicalDedekindReals.sig_not_dec, ClassicalDedekindReals.sig_forall_dec, FunctionalExtensionality.functional_extensionality_dep, Classical_Prop.classic
* `C91_size_refuted`: ClassicalDedekindReals.sig_not_dec, ClassicalDedekindReals.sig_forall_dec, FunctionalExtensionality.functional_extensionality_dep, Classical_Prop.classic
* `C91_boundary_refuted`: ClassicalDedekindReals.sig_not_dec, ClassicalDedekindReals.sig_forall_dec, FunctionalExtensionality.functional_extensionality_dep, Classical_Prop.classic
* `C95_invalid`: ClassicalDedekindReals.sig_not_dec, ClassicalDedekindReals.sig_forall_dec, FunctionalExtensionality.functional_extensionality_dep
* `C95_clean`: ClassicalDedekindReals.sig_not_dec, ClassicalDedekindReals.sig_forall_dec, FunctionalExtensionality.functional_extensionality_dep
* `C95_areas`: ClassicalDedekindReals.sig_not_dec, ClassicalDedekindReals.sig_forall_dec, FunctionalExtensionality.functional_extensionality_dep
* `C95_distinct`: ClassicalDedekindReals.sig_not_dec, ClassicalDedekindReals.sig_forall_dec, FunctionalExtensionality.functional_extensionality_dep
* `C95_ghosts_refuted`: ClassicalDedekindReals.sig_not_dec, ClassicalDedekindReals.sig_forall_dec, FunctionalExtensionality.functional_extensionality_dep
* `C99_triangle`: ClassicalDedekindReals.sig_not_dec, ClassicalDedekindReals.sig_forall_dec, FunctionalExtensionality.functional_extensionality_dep
* `C99_tetrahedron`: ClassicalDedekindReals.sig_forall_dec, FunctionalExtensionality.functional_extensionality_dep
* `C99_gradient`: ClassicalDedekindReals.sig_not_dec, ClassicalDedekindReals.sig_forall_dec, FunctionalExtensionality.functional_extensionality_dep
* `C99_uniform_stream2`: ClassicalDedekindReals.sig_not_dec, ClassicalDedekindReals.sig_forall_dec, FunctionalExtensionality.functional_extensionality_dep
* `C99_uniform_stream3`: ClassicalDedekindReals.sig_not_dec, ClassicalDedekindReals.sig_forall_dec, FunctionalExtensionality.functional_extensionality_dep
* `C99_balance2`: ClassicalDedekindReals.sig_not_dec, ClassicalDedekindReals.sig_forall_dec, FunctionalExtensionality.functional_extensionality_dep
* `C99_balance3`: ClassicalDedekindReals.sig_not_dec, ClassicalDedekindReals.sig_forall_dec, FunctionalExtensionality.functional_extensionality_dep
* `C99_tetrahedron_refuted`: ClassicalDedekindReals.sig_forall_dec, FunctionalExtensionality.functional_extensionality_dep
* `C99_stabilisation_refuted`: ClassicalDedekindReals.sig_not_dec, ClassicalDedekindReals.sig_forall_dec, FunctionalExtensionality.functional_extensionality_dep
* `C99_gravity_refuted`: ClassicalDedekindReals.sig_not_dec, ClassicalDedekindReals.sig_forall_dec, FunctionalExtensionality.functional_extensionality_dep
* `C99_density_refuted`: ClassicalDedekindReals.sig_not_dec, ClassicalDedekindReals.sig_forall_dec, FunctionalExtensionality.functional_extensionality_dep
* `C99_plane_refuted`: ClassicalDedekindReals.sig_not_dec, ClassicalDedekindReals.sig_forall_dec, FunctionalExtensionality.functional_extensionality_dep
* `C101_hull`: ClassicalDedekindReals.sig_not_dec, ClassicalDedekindReals.sig_forall_dec, FunctionalExtensionality.functional_extensionality_dep
* `C101_tilted`: ClassicalDedekindReals.sig_not_dec, ClassicalDedekindReals.sig_forall_dec, FunctionalExtensionality.functional_extensionality_dep
* `C101_set`: ClassicalDedekindReals.sig_not_dec, ClassicalDedekindReals.sig_forall_dec, FunctionalExtensionality.functional_extensionality_dep
* `C101_repeated_refuted`: ClassicalDedekindReals.sig_not_dec, ClassicalDedekindReals.sig_forall_dec, FunctionalExtensionality.functional_extensionality_dep
* `C101_vertical_refuted`: ClassicalDedekindReals.sig_not_dec, ClassicalDedekindReals.sig_forall_dec, FunctionalExtensionality.functional_extensionality_dep
* `C101_in_line_refuted`: ClassicalDedekindReals.sig_not_dec, ClassicalDedekindReals.sig_forall_dec, FunctionalExtensionality.functional_extensionality_dep
* `C106_flip`: ClassicalDedekindReals.sig_not_dec, ClassicalDedekindReals.sig_forall_dec, FunctionalExtensionality.functional_extensionality_dep, Classical_Prop.classic
* `C106_links_refuted`: ClassicalDedekindReals.sig_not_dec, ClassicalDedekindReals.sig_forall_dec, FunctionalExtensionality.functional_extensionality_dep, Classical_Prop.classic
* `C106_fold_refuted`: ClassicalDedekindReals.sig_not_dec, ClassicalDedekindReals.sig_forall_dec, FunctionalExtensionality.functional_extensionality_dep, Classical_Prop.classic
* `C107_relax`: ClassicalDedekindReals.sig_not_dec, ClassicalDedekindReals.sig_forall_dec, FunctionalExtensionality.functional_extensionality_dep, Classical_Prop.classic
* `C107_fold_refuted`: ClassicalDedekindReals.sig_not_dec, ClassicalDedekindReals.sig_forall_dec, FunctionalExtensionality.functional_extensionality_dep, Classical_Prop.classic
* `C107_numbers_refuted`: ClassicalDedekindReals.sig_not_dec, ClassicalDedekindReals.sig_forall_dec, FunctionalExtensionality.functional_extensionality_dep, Classical_Prop.classic
* `C108_triangle`: ClassicalDedekindReals.sig_not_dec, ClassicalDedekindReals.sig_forall_dec, FunctionalExtensionality.functional_extensionality_dep, Classical_Prop.classic
* `C108_quadrilateral`: ClassicalDedekindReals.sig_not_dec, ClassicalDedekindReals.sig_forall_dec, FunctionalExtensionality.functional_extensionality_dep
* `C108_tetrahedron`: ClassicalDedekindReals.sig_not_dec, ClassicalDedekindReals.sig_forall_dec, FunctionalExtensionality.functional_extensionality_dep
* `C108_prism`: ClassicalDedekindReals.sig_not_dec, ClassicalDedekindReals.sig_forall_dec, FunctionalExtensionality.functional_extensionality_dep, Classical_Prop.classic
* `C108_other`: ClassicalDedekindReals.sig_not_dec, ClassicalDedekindReals.sig_forall_dec, FunctionalExtensionality.functional_extensionality_dep, Classical_Prop.classic
* `C108_mesh`: ClassicalDedekindReals.sig_not_dec, ClassicalDedekindReals.sig_forall_dec, FunctionalExtensionality.functional_extensionality_dep, Classical_Prop.classic
* `C108_small_refuted`: ClassicalDedekindReals.sig_not_dec, ClassicalDedekindReals.sig_forall_dec, FunctionalExtensionality.functional_extensionality_dep, Classical_Prop.classic
* `C108_flat_prism_refuted`: ClassicalDedekindReals.sig_not_dec, ClassicalDedekindReals.sig_forall_dec, FunctionalExtensionality.functional_extensionality_dep, Classical_Prop.classic
* `C108_reflex_refuted`: ClassicalDedekindReals.sig_not_dec, ClassicalDedekindReals.sig_forall_dec, FunctionalExtensionality.functional_extensionality_dep
* `C108_forgotten_refuted`: ClassicalDedekindReals.sig_not_dec, ClassicalDedekindReals.sig_forall_dec, FunctionalExtensionality.functional_extensionality_dep, Classical_Prop.classic
* `C113_zero`: ClassicalDedekindReals.sig_not_dec, ClassicalDedekindReals.sig_forall_dec, FunctionalExtensionality.functional_extensionality_dep
* `C113_apart`: ClassicalDedekindReals.sig_not_dec, ClassicalDedekindReals.sig_forall_dec, FunctionalExtensionality.functional_extensionality_dep
* `C114_complete`: ClassicalDedekindReals.sig_not_dec, ClassicalDedekindReals.sig_forall_dec, FunctionalExtensionality.functional_extensionality_dep
* `C114_sound`: ClassicalDedekindReals.sig_not_dec, ClassicalDedekindReals.sig_forall_dec, FunctionalExtensionality.functional_extensionality_dep
* `C114_vertex`: ClassicalDedekindReals.sig_not_dec, ClassicalDedekindReals.sig_forall_dec, FunctionalExtensionality.functional_extensionality_dep
* `C114_never_edge`: ClassicalDedekindReals.sig_not_dec, ClassicalDedekindReals.sig_forall_dec, FunctionalExtensionality.functional_extensionality_dep
* `C114_distance`: ClassicalDedekindReals.sig_not_dec, ClassicalDedekindReals.sig_forall_dec, FunctionalExtensionality.functional_extensionality_dep
* `C114_zero`: ClassicalDedekindReals.sig_not_dec, ClassicalDedekindReals.sig_forall_dec, FunctionalExtensionality.functional_extensionality_dep
* `C114_edge_refuted`: ClassicalDedekindReals.sig_not_dec, ClassicalDedekindReals.sig_forall_dec, FunctionalExtensionality.functional_extensionality_dep
* `C114_plane_refuted`: ClassicalDedekindReals.sig_not_dec, ClassicalDedekindReals.sig_forall_dec, FunctionalExtensionality.functional_extensionality_dep
* `C114_side_refuted`: ClassicalDedekindReals.sig_not_dec, ClassicalDedekindReals.sig_forall_dec, FunctionalExtensionality.functional_extensionality_dep
* `C115_line_complete`: ClassicalDedekindReals.sig_not_dec, ClassicalDedekindReals.sig_forall_dec, FunctionalExtensionality.functional_extensionality_dep
* `C115_line_sound`: ClassicalDedekindReals.sig_not_dec, ClassicalDedekindReals.sig_forall_dec, FunctionalExtensionality.functional_extensionality_dep
* `C115_crossing`: ClassicalDedekindReals.sig_not_dec, ClassicalDedekindReals.sig_forall_dec, FunctionalExtensionality.functional_extensionality_dep
* `C115_inside`: ClassicalDedekindReals.sig_not_dec, ClassicalDedekindReals.sig_forall_dec, FunctionalExtensionality.functional_extensionality_dep
* `C115_apart`: ClassicalDedekindReals.sig_not_dec, ClassicalDedekindReals.sig_forall_dec, FunctionalExtensionality.functional_extensionality_dep
* `C115_before_refuted`: ClassicalDedekindReals.sig_not_dec, ClassicalDedekindReals.sig_forall_dec, FunctionalExtensionality.functional_extensionality_dep
* `C115_opposite_refuted`: ClassicalDedekindReals.sig_not_dec, ClassicalDedekindReals.sig_forall_dec, FunctionalExtensionality.functional_extensionality_dep
* `C117_contains`: ClassicalDedekindReals.sig_not_dec, ClassicalDedekindReals.sig_forall_dec, FunctionalExtensionality.functional_extensionality_dep, Classical_Prop.classic
* `C117_sound`: ClassicalDedekindReals.sig_not_dec, ClassicalDedekindReals.sig_forall_dec, FunctionalExtensionality.functional_extensionality_dep, Classical_Prop.classic
* `C117_meet`: ClassicalDedekindReals.sig_not_dec, ClassicalDedekindReals.sig_forall_dec, FunctionalExtensionality.functional_extensionality_dep, Classical_Prop.classic
* `C117_start_refuted`: ClassicalDedekindReals.sig_not_dec, ClassicalDedekindReals.sig_forall_dec, FunctionalExtensionality.functional_extensionality_dep, Classical_Prop.classic
* `C117_turned_refuted`: ClassicalDedekindReals.sig_not_dec, ClassicalDedekindReals.sig_forall_dec, FunctionalExtensionality.functional_extensionality_dep, Classical_Prop.classic
* `C117_chain`: ClassicalDedekindReals.sig_not_dec, ClassicalDedekindReals.sig_forall_dec, FunctionalExtensionality.functional_extensionality_dep, Classical_Prop.classic
* `C117_overlap`: ClassicalDedekindReals.sig_not_dec, ClassicalDedekindReals.sig_forall_dec, FunctionalExtensionality.functional_extensionality_dep, Classical_Prop.classic
* `C117_point_refuted`: ClassicalDedekindReals.sig_not_dec, ClassicalDedekindReals.sig_forall_dec, FunctionalExtensionality.functional_extensionality_dep, Classical_Prop.classic
* `C117_straight`: ClassicalDedekindReals.sig_not_dec, ClassicalDedekindReals.sig_forall_dec, FunctionalExtensionality.functional_extensionality_dep, Classical_Prop.classic
* `C117_apart_refuted`: ClassicalDedekindReals.sig_not_dec, ClassicalDedekindReals.sig_forall_dec, FunctionalExtensionality.functional_extensionality_dep, Classical_Prop.classic
