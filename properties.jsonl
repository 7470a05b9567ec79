{"id": "C01", "title": "Mesh insertion keeps ids, positions and values in step", "statement": "After any sequence of addNode (likewise addFace, addElement) calls with pairwise distinct ids on an empty mesh: nbNodes() is the number of calls, nodeId(i) is the id given to the i-th call, nodeIndex(nodeId(i)) == i for every valid i, nodeId(nodeIndex(id)) == id for every added id, node(id) is the value added with that id, and node/nodeIndex throw for every other id.", "quantifier": "every sequence of insertions with distinct ids (any length, any id values, any payloads)", "why_tests_cant": "the number of histories and id patterns is unbounded; a test fixes one", "anchors": ["trunk/src/mesh/MshMesh_Imp.hpp: addNode/addFace/addElement/nodeId/nodeIndex/node/nbNodes"]}
{"id": "C02", "title": "Mesh removal keeps exactly the survivors, but positions go stale", "statement": "After any history of addNode with fresh ids and removeNode of present ids, the ids enumerated by nodeId(0..nbNodes()-1) are exactly the surviving ids in insertion order and node(id) is unchanged for them, while removed ids throw. nodeIndex(id) equals the position of id only if no entity added before it has been removed: otherwise nodeIndex(id) is strictly larger than the position, and may be >= nbNodes(). Removing an id that is not present is undefined behaviour.", "quantifier": "every interleaving of insertions and removals", "why_tests_cant": "staleness depends on the whole history of edits, not on a single call", "anchors": ["trunk/src/mesh/MshMesh_Imp.hpp: removeNode/removeFace/removeElement/nodeIndex"]}
{"id": "C03", "title": "nextNodeId is always fresh", "statement": "In every reachable mesh, nextNodeId() (nextFaceId, nextElementId) is an id for which no node is stored, it is greater than every stored id, and it is 0 on an empty mesh; so addNode(nextNodeId(), v) never overwrites an existing node.", "quantifier": "every mesh state reachable by any edits, including negative and sparse ids", "why_tests_cant": "freshness has to hold against every set of stored ids", "anchors": ["trunk/src/mesh/MshMesh_Imp.hpp: nextNodeId/nextFaceId/nextElementId"]}
{"id": "C04", "title": "Copying a mesh preserves content and repairs positions", "statement": "The copy constructor yields a mesh that enumerates the same ids in the same order with the same nodes, faces and elements, and in which nodeIndex(nodeId(i)) == i for all i even when this failed in the source because of earlier removals; the source is unchanged.", "quantifier": "every mesh reachable by additions with fresh ids and removals of present ids", "why_tests_cant": "the repaired positions only differ from the source after particular edit histories", "anchors": ["trunk/src/mesh/MshMesh_Imp.hpp: CMshMesh(const CMshMesh&)"]}
{"id": "C05", "title": "addMesh appends a geometrically identical copy", "statement": "addMesh(b) on mesh a keeps every node and element of a unchanged, appends exactly nbNodes(b) nodes and nbElements(b) elements after them under ids not used in a, and for every element of b the appended element has the same type and its j-th node has the coordinates of the j-th node of the original element, for all j.", "quantifier": "every pair of meshes in which element connectivity only references existing nodes", "why_tests_cant": "id collisions between the two meshes can take every form", "anchors": ["trunk/src/mesh/MshMesh_Imp.hpp: addMesh"]}
{"id": "C06", "title": "renumber gives compact ids and keeps the geometry", "statement": "After renumber(), node, face and element ids are exactly 0..n-1 in their previous enumeration order, positions equal ids, and every element and face refers through its new node ids to nodes with the same coordinates as before. The pair and owner links of faces are not rewritten: there are meshes for which a face's pair link refers to a different face after renumber().", "quantifier": "every mesh with consistent connectivity and any id values (sparse, unordered, negative)", "why_tests_cant": "the remapping must be right for every permutation of ids", "anchors": ["trunk/src/mesh/MshMesh_Imp.hpp: renumber"]}
{"id": "C07", "title": "mergeNodes leaves valid connectivity", "statement": "If node ids are enumerated in increasing order and the nodes are not all in one place, then mergeNodes(tol) succeeds, every element and face refers only to surviving nodes, every replaced node is within the tolerance of its replacement, no two surviving nodes are within the tolerance of each other, surviving nodes keep their coordinates, every face and every element that keeps distinct nodes survives in order with its node ids replaced and nothing else changed, elements that collapse are deleted, and positions are consistent afterwards. If ids are not enumerated in increasing order there are meshes for which mergeNodes leaves an element referring to a deleted node.", "quantifier": "every node cloud, id order and tolerance", "why_tests_cant": "chains of near-coincident nodes of any length and shape", "anchors": ["trunk/src/mesh/MshMesh_Imp.hpp: mergeNodes"]}
{"id": "C08", "title": "mergeElements on duplicated elements", "statement": "mergeElements(tol) should keep exactly one element of every group of elements that coincide within the tolerance. It does not: it deletes exactly the elements that have another element whose centroid is within the tolerance, so no element of such a group survives; the others are kept unchanged in order, and nodes and faces are not touched. Positions are not rebuilt, so elementIndex may be out of date afterwards.", "quantifier": "every mesh and every grouping of duplicates", "why_tests_cant": "groups of duplicates of any size and any order", "anchors": ["trunk/src/mesh/MshMesh_Imp.hpp: mergeElements"]}
{"id": "C09", "title": "removeInvalidElements and removeDanglingNodes delete exactly what they should", "statement": "removeInvalidElements keeps, in order, exactly the elements without repeated nodes; removeDanglingNodes keeps, in order, exactly the nodes referenced by some element or some face; neither changes any surviving entity, so all references stay valid. Positions are not rebuilt.", "quantifier": "every mesh", "why_tests_cant": "has to hold for every combination of degenerate elements and unreferenced nodes", "anchors": ["trunk/src/mesh/MshMesh_Imp.hpp: removeInvalidElements/removeDanglingNodes/rebuildIndices"]}
{"id": "C10", "title": "The mesh bounding box is the tightest box", "statement": "For every mesh with distinct node ids boundingBox() contains every node and each of its six sides touches a node; boundingBox(e) does the same for the nodes of element e.", "quantifier": "every non-empty set of nodes", "why_tests_cant": "tightness and containment over arbitrary coordinates", "anchors": ["trunk/src/mesh/MshMesh_Imp.hpp: boundingBox", "trunk/src/geometry/GeoBoundingBox_Imp.hpp: addCoordinate"]}
{"id": "C11", "title": "Generated faces of a cell form a closed oriented surface", "statement": "For tetrahedra, triangular prisms and hexahedra with arbitrary node ids, the faces produced by generateFaces use only nodes of the element, and every directed edge (a,b) occurs among all face boundaries exactly as often as (b,a); for triangles and quadrilaterals the produced edges form a closed directed cycle through all nodes in order.", "quantifier": "every element type and every assignment of node ids, including repeated ids", "why_tests_cant": "quantifies over all connectivity; the closedness is an algebraic identity", "anchors": ["trunk/src/mesh/MshElement_Imp.hpp: generateFaces"]}
{"id": "C12", "title": "Element inversion", "statement": "invert() applied twice restores every element. One call reverses the orientation of a beam, triangle, quadrilateral or tetrahedron (length vector, area vector or signed volume changes sign for all coordinates) but leaves prisms and hexahedra exactly as they were.", "quantifier": "every element and all node coordinates", "why_tests_cant": "sign change must hold for all coordinates", "anchors": ["trunk/src/mesh/MshElement_Imp.hpp: invert", "trunk/src/mesh/MshMesh_Imp.hpp: invert"]}
{"id": "C13", "title": "Face pairing is a symmetric matching of identical node sets", "statement": "After generateFaces on a mesh in which every node set bounds at most two faces and no tolerance effects arise, the pair relation is an involution without fixed points, paired faces have the same nodes and belong to different elements, faces without pair are exactly those whose node set occurs once, and nbBoundaryFaces() counts them. With three coincident faces the pair relation is not symmetric.", "quantifier": "every mesh (any number and type of elements)", "why_tests_cant": "pairing depends on all pairs of faces of an arbitrary mesh", "anchors": ["trunk/src/mesh/MshMesh_Imp.hpp: generateFaces/nbBoundaryFaces", "trunk/src/mesh/MshFace_Imp.hpp: setPairFaceId"]}
{"id": "C14", "title": "The extracted boundary of any solid mesh is watertight", "statement": "For every mesh of tetrahedra, prisms and hexahedra whose paired faces are traversed in opposite directions, the faces without a pair form a closed surface: every directed edge occurs on the boundary exactly as often as its reverse.", "quantifier": "every conforming volumetric mesh of any size", "why_tests_cant": "a global topological identity over meshes of unbounded size", "anchors": ["trunk/src/mesh/MshMesh_Imp.hpp: extractBoundary/generateFaces", "trunk/src/mesh/MshElement_Imp.hpp: generateFaces"]}
{"id": "C15", "title": "Structured generation has the advertised counts and valid connectivity", "statement": "For all nu,nv,nw >= 1 generate() for a hexahedron yields (nu+1)(nv+1)(nw+1) nodes and nu*nv*nw hexahedra (6 times as many tetrahedra when decimated), a quadrilateral yields (nu+1)(nv+1) nodes and nu*nv quadrilaterals (twice as many triangles), a line yields nu+1 nodes and nu beams; node ids are 0.. in enumeration order; every element references only existing nodes and its nodes are pairwise distinct.", "quantifier": "all grid sizes", "why_tests_cant": "grid sizes are unbounded", "anchors": ["trunk/src/mesh/MshBasicMesher_Imp.hpp: generate"]}
{"id": "C16", "title": "Structured hexahedral meshes are conforming", "statement": "For all nu,nv,nw >= 1 every quadrilateral face of the generated hexahedra is shared by exactly two cells, which traverse it in opposite directions, or lies on the boundary of the index box and belongs to exactly one cell; the number of boundary faces is 2(nu*nv+nv*nw+nu*nw).", "quantifier": "all grid sizes and all faces", "why_tests_cant": "must hold for every cell of every size of grid", "anchors": ["trunk/src/mesh/MshBasicMesher_Imp.hpp: generate", "trunk/src/mesh/MshElement_Imp.hpp: generateFaces"]}
{"id": "C17", "title": "Structured meshes fill the prescribed box exactly", "statement": "For any parallelepiped and all nu,nv,nw >= 1, the volumes of the generated hexahedra are all equal and of one sign and add up to the volume of the input hexahedron, and the same holds for the sum over the generated tetrahedra; likewise areas for quadrilaterals and triangles and lengths for lines.", "quantifier": "all grid sizes and all parallelepipeds", "why_tests_cant": "sum over an unbounded number of cells, for all real coordinates", "anchors": ["trunk/src/mesh/MshBasicMesher_Imp.hpp: generate", "trunk/src/geometry/GeoHexahedron_Imp.hpp", "trunk/src/geometry/GeoTetrahedron_Imp.hpp"]}
{"id": "C18", "title": "Decimated structured meshes are conforming", "statement": "The six-tetrahedra split used for every cell induces on the two cells adjacent to a grid face the same diagonal, so for all nu,nv,nw the generated tetrahedra match face to face with opposite orientation across every interior grid face.", "quantifier": "all grid sizes and all interior grid faces", "why_tests_cant": "conformity across every interior face of every grid", "anchors": ["trunk/src/mesh/MshBasicMesher_Imp.hpp: generate"]}
{"id": "C19", "title": "Hash grid search returns exactly the points in range", "statement": "For every list of points that do not all have the same coordinates, added to a new or reset grid and built once, every query point and tolerance for which find() is defined: find() appends exactly the ids of the stored points whose distance to the query is <= tolerance, each once per stored occurrence, and never drops or invents a point. find() is defined whenever the cube of half-width tolerance around the query meets the bounding box of the points. Outside these limits it fails: coincident points divide by zero, a far query overflows int, and a second build() without reset() reports points repeatedly.", "quantifier": "every point set, cell count, query and tolerance", "why_tests_cant": "correctness of the bucket arithmetic for all coordinates", "anchors": ["trunk/src/geometry/GeoHashGrid_Imp.hpp: build/find"]}
{"id": "C20", "title": "Hash grid storage is a stable counting sort", "statement": "For any assignment of points to cells, the two build passes place every point index exactly once, group them by cell, keep insertion order inside a cell, and never write outside the allocated list.", "quantifier": "every number of points, cells and assignment", "why_tests_cant": "in-bounds and permutation properties of an in-place counting sort", "anchors": ["trunk/src/geometry/GeoHashGrid_Imp.hpp: build"]}
{"id": "C21", "title": "Alternating digital tree query is exact", "statement": "For every sequence of insertions of boxes (inside or outside the box the tree was set up with) with ids other than -1, find(q) returns, up to order, exactly the ids of the inserted boxes that intersect the query box (touching counts), whatever the output vector held before and whatever the tolerance. The search is bounded by a stack of 1024 entries: it cannot overflow with up to 2048 boxes; when it overflows, the result is still a subset, but boxes can be missed.", "quantifier": "every insertion sequence and every query box", "why_tests_cant": "pruning soundness over arbitrary tree shapes", "anchors": ["trunk/src/geometry/GeoAdtree_Imp.hpp: insert/getIntersecting/find"]}
{"id": "C22", "title": "Alternating digital tree removal", "statement": "removeGeometricObject(k) removes the box that was inserted k-th (counting from 0), whatever its id: it removes the box with id k only if ids were assigned 0,1,2,... in insertion order and no slot was reused, and is undefined behaviour if k is not a valid ordinal. After a removal the remaining boxes are still found exactly, and later insertions may reuse the slot.", "quantifier": "every history of insertions and removals", "why_tests_cant": "depends on the whole edit history", "anchors": ["trunk/src/geometry/GeoAdtree_Imp.hpp: remove/insert"]}
{"id": "C23", "title": "Octree search never reports a point out of range but may miss points", "statement": "Every id returned by the octree find is a stored point within the tolerance of the query. With up to 1000 points and a tolerance of at most one machine epsilon the search is exact. Otherwise completeness fails: a neighbour across a middle plane is missed, and with more than 1000 points a query at a stored point can return nothing or be undefined, and building can recurse forever. reset() does not clear the tree, so reusing the object is undefined.", "quantifier": "every point set and query", "why_tests_cant": "soundness for all trees; incompleteness needs particular geometry", "anchors": ["trunk/src/geometry/GeoOctree_Imp.hpp: build/createRecursive/dispatch/find"]}
{"id": "C24", "title": "Bounding box algebra", "statement": "After any sequence of addCoordinate calls the box is the least box containing the coordinates, independent of order; shrink undoes grow; contains and intersects agree with their pointwise meaning (some point within both boxes, up to tolerance).", "quantifier": "every sequence of coordinates and all pairs of boxes", "why_tests_cant": "quantifies over all boxes and orders", "anchors": ["trunk/src/geometry/GeoBoundingBox_Imp.hpp"]}
{"id": "C25", "title": "Clipping a segment by a plane keeps exactly the inner part", "statement": "clip() on a consistent segment: if the segment is not parallel to the plane within the tolerance and has some point with n.x <= d, the clipped segment consists of exactly the points of the original with n.x <= d. If no point has n.x <= d the result is the zero-length segment at the start point (an outside point: callers must test the length). For every plane the result is contained in the original, and only points within the tolerance of the plane can be wrongly kept or lost.", "quantifier": "every segment, plane and tolerance >= 0, every point of the segment", "why_tests_cant": "all relative positions of segment and plane, and a continuum of points", "anchors": ["trunk/src/geometry/GeoLine_Imp.hpp: clip"]}
{"id": "C26", "title": "Segment-to-point distance is the true minimum", "statement": "distance(point) on a consistent segment returns a point of the segment, and no point of the segment is closer to the query (squared distances compared), for zero tolerance. With a tolerance the returned point may leave the segment by that fraction of its length and is still at most as far as every point of the segment. The call fails exactly when the segment is no longer than the tolerance.", "quantifier": "every segment, query point and tolerance, against every point of the segment", "why_tests_cant": "an optimality statement over a continuum", "anchors": ["trunk/src/geometry/GeoLine_Imp.hpp: distance"]}
{"id": "C27", "title": "Segment end points and direction stay consistent", "statement": "If the start point is set before the end point, vector() equals end minus start and invert() swaps the end points exactly. Calling setStartPoint after setEndPoint leaves vector() stale, so there are call orders after which midPoint/invert/clip work with a wrong direction.", "quantifier": "every sequence of setter calls", "why_tests_cant": "depends on call order", "anchors": ["trunk/src/geometry/GeoLine_Imp.hpp: setStartPoint/setEndPoint/invert/vector"]}
{"id": "C28", "title": "Vertex list editing", "statement": "invert() applied twice is the identity. removeDuplicates only deletes vertices, keeps the order, leaves no two consecutive equal vertices (exact equality, no tolerance), drops no vertex without an equal one remaining, and leaves a list without equal neighbours unchanged. removeCollinear keeps the first and last vertex and exactly those interior vertices at which the original polyline turns, although it overwrites the list while scanning it; on a one-vertex list it writes out of range. A vertex inserted at i is read back at i, and removing it restores the list; setVertex changes one vertex only.", "quantifier": "every vertex list, index and collinearity test", "why_tests_cant": "lists of unbounded length, in-place compaction", "anchors": ["trunk/src/geometry/GeoVertexList_Imp.hpp: invert/removeDuplicates/removeCollinear/insertVertex/removeVertex/setVertex/vertex"]}
{"id": "C29", "title": "Sorting a line list only reorders and reverses its lines, and chains what can follow", "statement": "sort() leaves the multiset of undirected lines and the first line unchanged for every list of consistent lines and every tolerance; in the result, whenever some later line has an end point within the tolerance of the end of line i, line i+1 starts within the tolerance of it. If the lines form a simple path (open or closed) starting with the first line, the result is that path. A path whose first line is listed in the middle is not chained, because sort() never extends backwards. invert() reverses the order and every line and is its own inverse.", "quantifier": "every line list and tolerance", "why_tests_cant": "lists of unbounded length with arbitrary connections", "anchors": ["trunk/src/geometry/GeoLineList_Imp.hpp: sort/invert"]}
{"id": "C30", "title": "Polygon triangulation preserves the vector area and has n-2 triangles", "statement": "For every closed polygon with n >= 3 corners triangulate() produces n-2 triangles, each made of three corners in the cyclic order of the polygon, whose vector areas add up to the vector area of the polygon, whichever ears are chosen. If the polygon is convex every triangle has the orientation of the polygon, so that the areas themselves add up. For non-convex polygons the triangles may overlap: their areas can exceed the area of the polygon.", "quantifier": "every polygon of any size and every angle function bounded like an arc cosine", "why_tests_cant": "unbounded number of corners and ear orders", "anchors": ["trunk/src/geometry/GeoPolygon_Imp.hpp: triangulate/area"]}
{"id": "C31", "title": "Cell volume formulas agree under decomposition", "statement": "For every parallelepiped the six tetrahedra of CGeoHexahedron::decimate have one sixth of the volume() of the hexahedron each, and they tile it: every point of the parallelepiped lies in one of them, and a point inside one lies in no other; for every quadrilateral, planar or not, the two triangles of decimate have area vectors adding up to its area vector; for every tetrahedron the volume is minus one sixth of the triple product of the edges at the first vertex, changes sign under a swap of two vertices, is unchanged by translation and is zero exactly for coplanar vertices. For hexahedra that are not parallelepipeds the tetrahedra do not add up to volume().", "quantifier": "all coordinates", "why_tests_cant": "algebraic identities over all coordinates", "anchors": ["trunk/src/geometry/GeoHexahedron_Imp.hpp: decimate/calculateVolume", "trunk/src/geometry/GeoTetrahedron_Imp.hpp: calculateVolume", "trunk/src/geometry/GeoQuadrilateral_Imp.hpp: decimate"]}
{"id": "C32", "title": "Polyhedron volume is the enclosed volume and agrees with the cell formulas", "statement": "For every closed polyhedron whose faces have different ids, are planar and have somewhere a corner spanning more than the machine epsilon, volume() is the enclosed volume of the divergence theorem, seen from any reference point, and is unchanged by translation; for the polyhedra built from a tetrahedron, a parallelepiped and a prism with parallel edges it equals the volume formula of the cell. Faces below the machine epsilon are not counted (a tetrahedron with edges of 1e-8 has volume 0), and a polygon added twice under one id is counted twice.", "quantifier": "every closed polyhedron with any number of faces; all coordinates", "why_tests_cant": "divergence-theorem identity over arbitrary face sets", "anchors": ["trunk/src/geometry/GeoPolyhedron_Imp.hpp: calculateVolume/set/addPolygon/constructors"]}
{"id": "C33", "title": "Cutting a polyhedron by a plane yields complementary parts", "statement": "cut(p1,p2,plane) should return the two complementary parts. It returns the same part twice: for every polyhedron and plane both outputs are identical, so whenever the part is not exactly half of the volume the two volumes do not add up to the volume of the original. clip() itself closes the part with a face turned along the plane normal: for cells in right-handed vertex order, whose faces point inward, the volumes of the clipped parts are wrong. clip() at a fraction between 0 and 1 of the volume returns the part below a plane with the given normal that lies between the lowest and the highest vertex along it; the plane passed in becomes this plane; the fraction reported is that of the volume of the part; and if fewer iterations than allowed were needed it is the one asked for up to the tolerance. Fractions of 0 or less give nothing, of 1 or more all polygons. cut() at a fraction returns the same as that clip, but the other part is always empty instead of the rest.", "quantifier": "every polyhedron, plane, fraction, number of iterations and tolerance below 1", "why_tests_cant": "complementarity over all planes; the iteration has infinitely many courses", "anchors": ["trunk/src/geometry/GeoPolyhedron_Imp.hpp: cut/clip/close"]}
{"id": "C34", "title": "The sphere through four points passes through them", "statement": "For every four points spanning a tetrahedron whose sixfold volume exceeds the squared tolerance, all four have the same squared distance from the centre computed by the four-point constructor, namely the computed squared radius; for flatter quadruples the result is the sphere of radius 0 at the origin.", "quantifier": "all quadruples of points and tolerances", "why_tests_cant": "algebraic identity over all coordinates", "anchors": ["trunk/src/geometry/GeoSphere_Imp.hpp: CGeoSphere"]}
{"id": "C35", "title": "CSG polygon splitting keeps each piece on its side", "statement": "For every polygon, plane and tolerance, every point of the polygons put in the front lists satisfies n.x - d >= -tol and lies in the original polygon, likewise n.x - d <= tol for the back lists; coplanar polygons are passed unchanged to the list chosen by their normal; a polygon that does not span is passed unchanged. For a flat convex polygon and exact arithmetic nothing is lost: the parts are flat and convex, together they have exactly the points of the polygon, and each point strictly on one side is in a part of that side.", "quantifier": "every polygon, plane, tolerance and point", "why_tests_cant": "all vertex configurations", "anchors": ["trunk/src/csg/CsgBspNode_Imp.hpp: splitPolygon"]}
{"id": "C36", "title": "BSP inversion and traversal", "statement": "invert() applied twice restores every BSP tree, and exchanges inside and outside: a point on no dividing plane is inside the inverted solid exactly if it was not inside the solid. allPolygons() collects every polygon stored in the tree exactly once on the first call; because it accumulates into the root, a second call returns the polygons of the subtrees again.", "quantifier": "every BSP tree and point", "why_tests_cant": "trees of unbounded depth", "anchors": ["trunk/src/csg/CsgBspNode_Imp.hpp: invert/allPolygons"]}
{"id": "C37", "title": "STL round trip", "statement": "Binary: for all facets whose coordinates survive single precision, save writes 84 + 50n bytes, and if there are at least six facets and bytes 84 to 339 hold a zero byte with no 'vertex' before it, loading gives the same facets in the same order, numbered 0, 1, 2, ..., whatever the object held before. Text: for all facets whose numbers survive printing in 14 to 16 characters, the same from two facets on. The condition on the bytes is needed: without a zero byte the loader reads past its buffer, and a valid file in which the letters 'vertex' appear is rejected.", "quantifier": "every facet list, coordinate, id assignment and previous content", "why_tests_cant": "byte-level codec over all values and sizes", "anchors": ["trunk/src/stl/StlUtils_Imp.hpp: save, saveAscii, saveBinary, load"]}
{"id": "C38", "title": "Short STL files are silently ignored", "statement": "Loading a saved binary file of up to five facets or a saved text file of at most one facet reports success and leaves the object exactly as it was: nothing is loaded and nothing is cleared.", "quantifier": "every facet list of such length, all coordinates and previous contents", "why_tests_cant": "a test would have to know the size threshold", "anchors": ["trunk/src/stl/StlUtils_Imp.hpp: load"]}
{"id": "C39", "title": "Gmsh round trip", "statement": "A mesh obtained by any sequence of insertions and removals can be saved without field data, and whenever saving succeeds, loading the file (over whatever mesh was there before) gives the same nodes in the same order and, in order, the beams, triangles, quadrilaterals, tetrahedra, hexahedra and prisms with the same type and with corners at the same places, provided every coordinate survives printing with 16 digits. Point elements are written but lost on loading; 16 digits are not enough for every double; field data can only be saved if the ids are 0 .. n-1, and then every line holds the values of its node.", "quantifier": "every history of the mesh, every numbering, every connectivity and previous content", "why_tests_cant": "round trip over all meshes and id assignments", "anchors": ["trunk/src/post/PosGmsh_Imp.hpp: load, save, findSection"]}
{"id": "C40", "title": "VTK files are consistent", "statement": "In a saved file of beams, triangles, tetrahedra, hexahedra and prisms the CELLS section has as many lines as announced, every line starts with the number of corners following, and the words add up to the announced size. If no node was removed before, the numbers in a line are the positions of the corners of the element in the list of points, in the order of the VTK cell types, whose numbers are written for all these elements; node values are written one per point in the order of the points. All coordinates are written with 16 digits except the first of the file (6). Quadrilaterals break the count, and after a removal the numbers point elsewhere.", "quantifier": "every mesh and field", "why_tests_cant": "counts over all meshes and element mixes", "anchors": ["trunk/src/post/PosVtk_Imp.hpp: save"]}
{"id": "C41", "title": "Elimination of fixed unknowns is equivalent to imposing them", "statement": "For every square system, every set of distinct fixed unknowns and prescribed values: a vector solves the reduced system produced by setElimination if and only if its extension by the prescribed values satisfies all non-fixed rows of the original system; solve() puts the solution back at the original positions and the prescribed values at the others. Sources add up on the right-hand side of their unknowns and change nothing else. Applying sources or a second elimination after the elimination uses the old numbering and is wrong.", "quantifier": "every system size, matrix, right-hand side and set of fixed unknowns", "why_tests_cant": "linear systems of unbounded size", "anchors": ["trunk/src/pde/PdeEquation_Imp.hpp: setElimination/solve/setSources"]}
{"id": "C42", "title": "Penalty imposition", "statement": "For finite differences and finite elements setPenaltyFactor changes only the diagonal entry and right-hand side of fixed unknowns; in every exact solution of the modified system the error of a fixed unknown is minus the sum of its off-diagonal couplings times the solution, divided by the penalty factor; solve() then overwrites the fixed unknowns by their values. For other methods setPenaltyFactor does nothing.", "quantifier": "every system and every penalty factor different from zero", "why_tests_cant": "holds for all systems", "anchors": ["trunk/src/pde/PdeEquation_Imp.hpp: setPenaltyFactor/solve"]}
{"id": "C43", "title": "Equation operator algebra", "statement": "For systems of equal size, adding or subtracting systems adds or subtracts matrices and right-hand sides, and scaling scales both, so a vector solving two systems solves their sum. Assigning a scalar or vector with = accumulates into the right-hand side instead of replacing it, and adding a scalar changes both the diagonal and the right-hand side.", "quantifier": "every system", "why_tests_cant": "all sizes and values", "anchors": ["trunk/src/sle/SleSystem_Imp.hpp: operator+/operator-/operator*/operator="]}
{"id": "C44", "title": "Finite difference operators", "statement": "For every number of nodes n >= 2, the one-dimensional finite-difference Laplacian is symmetric and tridiagonal; at inner nodes it is the centred second difference, so it is exact on quadratics; at a free end it is a one-sided difference, so constants are in the kernel when nothing is prescribed; with both ends prescribed laplacian(u) = 0 has exactly one solution, the linear profile that takes the prescribed values one spacing outside the mesh. Hence, after solve() stores the prescribed values at the end nodes, the field is not the linear profile between them. With one node the operator writes outside the matrix. The divergence is the centred first difference at inner nodes but the identity at the ends, so constants have non-zero divergence there.", "quantifier": "every n, spacing, field and set of prescribed values", "why_tests_cant": "unbounded n", "anchors": ["trunk/src/pde/fdm/generic/FdmGenericOperators_Imp.hpp: laplacian/divergence/ddt"]}
{"id": "C45", "title": "Finite volume Laplacian", "statement": "For every mesh with generated faces the finite-volume Laplacian is defined and, applied to any field, gives in each element the net diffusive inflow through its faces (area over distance times the difference of the values) divided by its volume; constant fields, also as prescribed values, are in its kernel. If both sides of every inner face measure the same area and distance, the volume-weighted sum over all elements is exactly the inflow through the boundary, and with nothing prescribed the operator is symmetric and negative semidefinite in the volume-weighted product.", "quantifier": "every mesh with generated faces, geometry, set of prescribed values and field", "why_tests_cant": "meshes of unbounded size, continuum of fields", "anchors": ["trunk/src/pde/fvm/generic/FvmGenericOperators_Imp.hpp: laplacian", "trunk/src/pde/fvm/thermal/FvmThermalOperators_Imp.hpp"]}
{"id": "C46", "title": "Finite element matrices: symmetry, kernel, sign and exactness", "statement": "Beams, triangles anywhere in space, convex planar quadrilaterals, positively oriented tetrahedra, and hexahedra and prisms whose map is not singular at the integration points: the diffusion matrix is symmetric, gives nothing for constant fields, never has positive energy, and on linear fields equals minus the product of the gradients times the measure the element has. The storage matrices are symmetric; those of beams, triangles and tetrahedra are the true integrals of products of shape functions, and those of quadrilaterals and parallelepipeds add up to the area or volume. Not so: storage of triangles ignores the thickness, tetrahedra with two vertices exchanged have the wrong sign, a trapezoid that is its own mirror image is stored asymmetrically, the unit cube with its nodes in mesh order gets volume 0.577, and prisms always get three quarters of their volume.", "quantifier": "all element geometries, nodal values, time steps and thicknesses", "why_tests_cant": "identities and definiteness over all reals", "anchors": ["trunk/src/fem/FemBeam_Imp.hpp", "trunk/src/fem/FemTriangle_Imp.hpp", "trunk/src/fem/FemQuadrilateral_Imp.hpp", "trunk/src/fem/FemTetrahedron_Imp.hpp", "trunk/src/fem/FemHexahedron_Imp.hpp", "trunk/src/fem/FemTriangularPrism_Imp.hpp"]}
{"id": "C47", "title": "Structural stiffness: rigid motions, symmetry and energy", "statement": "For every triangle in the plane and every admissible material the stiffness is symmetric, rigid motions produce no nodal force, affine displacements have the exact plane-stress energy, and only rigid motions have zero energy. For every non-degenerate tetrahedron rigid motions produce no force, and positively oriented ones have non-negative energy as long as 3v^2 + 3v <= 2 (v the Poisson ratio). The tetrahedral stiffness is not symmetric (its material matrix lacks an entry), beyond that bound some deformation has negative energy, and with two vertices exchanged every stretch has.", "quantifier": "all geometries, displacements and material constants", "why_tests_cant": "identities and definiteness over all reals", "anchors": ["trunk/src/fem/structural"]}
{"id": "C48", "title": "Lattice-Boltzmann equilibrium, collision and streaming", "statement": "For every density and velocity the nine equilibrium populations add up to the density, their first moments to density times velocity and their second moments to the momentum flux with pressure rho/3. Relaxation therefore conserves mass and momentum at every node for every relaxation time and population vector. The opposite-direction table is an involution that negates lattice velocities and keeps the weights. One step moves every relaxed population one node along its velocity (reversed at flagged nodes), and the reported density and velocity of inner nodes are the moments of the populations.", "quantifier": "all densities, velocities, relaxation times, populations, grids and flags", "why_tests_cant": "identities over a continuum of states", "anchors": ["trunk/src/solvers/LbmLidDrivenSolver_Imp.hpp"]}
{"id": "C49", "title": "Lattice-Boltzmann rest state is stationary; walls", "statement": "After init(), for every grid size, non-zero relaxation time, set of flagged nodes and number of steps, the fluid stays exactly at rest with density one. Flags on the frame of the grid have no effect on the flow, for any state and number of steps; so a cavity closed by flagged walls does not keep its mass once its lid moves.", "quantifier": "all grid sizes, relaxation times, flags and step counts", "why_tests_cant": "induction over steps and cells", "anchors": ["trunk/src/solvers/LbmLidDrivenSolver_Imp.hpp"]}
{"id": "C50", "title": "SPH particles stay in a cyclic domain", "statement": "With a cyclic domain, after every step every particle lies in the domain box, whatever its velocity and time step. While no boundary is met the particle moves by velocity times time step, except that the y and z components of the velocity are exchanged. A particle that leaves through one side re-enters exactly at the opposite side (its overshoot is lost), and one at rest at the lower side jumps to the upper side.", "quantifier": "all positions, velocities, time steps and domains", "why_tests_cant": "all real positions", "anchors": ["trunk/src/solvers/SphParticles_Imp.hpp"]}
{"id": "C51", "title": "SPH smoothing kernels", "statement": "Each of the five smoothing kernels is non-negative, zero beyond its support, non-increasing with distance and positive at distance zero, for every smoothing length and dimension 1 to 3. In two and three dimensions the quintic, convex and spiky kernels integrate to one; in one dimension they integrate to two, and the cubic spline integrates to four in every dimension. The gradient function returns minus h^2 times the gradient of the kernel (a quarter of it for the cubic spline), except for the convex kernel. The laplacian function is non-negative and zero beyond the support, except for the convex kernel, where it can be negative.", "quantifier": "all positions, smoothing lengths and dimensions", "why_tests_cant": "inequalities and integrals over a continuum", "anchors": ["trunk/src/sph: CSphCubicSpline, CSphQuintic, CSphGaussian, CSphConvex, CSphSpiky"]}
{"id": "C52", "title": "Bisection keeps a bracket", "statement": "For every function with a sign change over [a,b], the value returned by bisection is the midpoint of an interval within [a,b] that still brackets a sign change and has width (b-a)/2^n, where n is the reported number of iterations, at most nMax+1; the loop stops earlier only when the width is within the tolerance, and never later. If the function changes sign at a single point the returned value is within |b-a|/2^(n+1) of it. Without a sign change nothing is reported and the upper bound is approached.", "quantifier": "every function, interval, tolerance and iteration limit", "why_tests_cant": "arbitrary functions", "anchors": ["trunk/src/analytical/AnaFunction_Imp.hpp: bisection"]}
{"id": "C53", "title": "Brent's method keeps a bracket", "statement": "For every function with a strict sign change over the interval, brent makes at most nMax+1 iterations and returns a point of the interval which is a root or one end of a sub-bracket with a sign change, with the smaller residual of the two ends; it stops before the limit only at a root or when the bracket is within the tolerance. Without a strict sign change it returns the end with the smaller signed value and leaves the iteration count unset, so a root at an end of the interval can be missed.", "quantifier": "every function, interval, tolerance and iteration limit", "why_tests_cant": "arbitrary functions including discontinuous ones", "anchors": ["trunk/src/analytical/AnaFunction_Imp.hpp: brent"]}
{"id": "C54", "title": "Control-volume mesh has one face per pair", "statement": "For every mesh with generated faces the control-volume mesh is defined and has one face for each pair and each unpaired face: twice nbFaces() is the number of faces plus the number of unpaired faces. The two elements at an inner face see each other as neighbours. There is one control volume per element, with the same id, listing the faces of the element; each polygon is the one of the element's own face or the reverse of the one on the other side, unless an element touches itself.", "quantifier": "every mesh with generated faces", "why_tests_cant": "meshes of unbounded size and any numbering", "anchors": ["trunk/src/fvm/FvmMesh_Imp.hpp: set", "trunk/src/fvm/FvmFace_Imp.hpp"]}
{"id": "C55", "title": "Volume-of-fluid fractions, weights and conservation", "statement": "Whatever the linear solver returns, the fraction of every cell after a step lies in [0,1] and density and viscosity lie between those of the two fluids and are those of one of them where only it is present. For every mesh, flux and blending weight, an exact solution of the fraction equations changes the total amount of a fluid only by what crosses the boundary (the contributions of a face to its two cells cancel), and a uniform fraction in a flow without mass error solves them. Predicted weights lie in [0,1]; correcting a weight keeps it between 0 and its old value, and since fractions are clamped it never changes one. The given inflow of a fluid, however, reduces its amount, and weight 0 takes the fraction from downstream.", "quantifier": "all meshes in which the owner of a face comes first, all fluxes, weights, fractions and solver outputs", "why_tests_cant": "global conservation over unbounded meshes and all fluxes", "anchors": ["trunk/src/solvers/FvmVofSolver_Imp.hpp: calculateGammaField, updateProperties, predictBeta, correctBeta, calculateCourant"]}
{"id": "C56", "title": "Gauss quadrature tables", "statement": "The beam rules integrate every polynomial up to degree 1, 3, 7 and 11 for 1, 2, 4 and 6 points (to the precision of the printed constants), and the quadrilateral and hexahedron rules with one point per direction those of degree 1 and with two points those of degree 3 in each variable; functions affine in each variable come out exactly. The triangle rules with 6, 12, 16, 17 and 20 points integrate every polynomial up to degree 4, 6, 8, 8 and 9, the 7-point rule up to degree 5 with an error of 2e-5. The boundary-element points integrate affine functions over any triangle. The 3-point beam rule, the 8-point quadrilateral rule, the 27-point hexahedron rule, the prism rules and the 1- and 3-point triangle rules (area 1 and 3 instead of 1/2) do not integrate constants or affine functions correctly. Any other number of points makes every beam, quadrilateral, hexahedron and prism integral zero.", "quantifier": "every rule and every polynomial of the degree", "why_tests_cant": "exactness for all integrands of the class", "anchors": ["trunk/src/integration", "trunk/src/pde/bem: CBemTriangle getIntegrationPoints"]}
{"id": "C57", "title": "Box meshes with a prescribed cell size", "statement": "generate(box, meshSize) fills the box from its lower corner with cells of exactly the requested size: along each axis it uses the number of whole cells that fit, all nodes lie inside the box, all cells have volume meshSize^3 (one sixth of it when decimated), the mesh is conforming, and every point at least meshSize away from the upper sides is covered. The remaining rim is not meshed: the cells fill the box only if the size divides all extents.", "quantifier": "every box and every positive cell size", "why_tests_cant": "box and cell size range over a continuum and the number of cells is unbounded", "anchors": ["trunk/src/mesh/MshBasicMesher_Imp.hpp: generate"]}
{"id": "C58", "title": "Distance between two segments", "statement": "distance(line) between two consistent, non-parallel segments returns a point of the first segment (up to the tolerance) and a point of the unbounded line through the second one, and no such pair is closer. It is therefore a lower bound of the distance between the segments, and it is not that distance in general: the second point may lie off the second segment.", "quantifier": "every pair of segments and tolerance >= 0, against every pair of points", "why_tests_cant": "an optimality statement over a continuum of pairs", "anchors": ["trunk/src/geometry/GeoLine_Imp.hpp: distance(line)"]}
{"id": "C59", "title": "Intersection of a segment with a plane", "statement": "intersects(plane), for a plane with unit normal and a segment not parallel to it within the squared tolerance: a reported point lies on the plane and on the segment (extended by the tolerance at each end), and if nothing is reported no point of the segment lies on the plane. For a normal of another length the reported point can miss the plane n.x = d that clip() uses.", "quantifier": "every segment, plane and tolerance >= 0", "why_tests_cant": "all relative positions of segment and plane", "anchors": ["trunk/src/geometry/GeoLine_Imp.hpp: intersects(plane)"]}
{"id": "C60", "title": "Polygon area times normal is the vector area", "statement": "For every planar polygon in which some three successive vertices span more than the machine epsilon, normal() times area() is the vector area of the polygon, for convex and non-convex polygons and whichever coordinate plane it is projected on. Otherwise the area is 0, which is wrong for small polygons; and area() is negative when the first corner is reflex, because the normal is taken from that corner.", "quantifier": "every polygon with any number of corners, in any position", "why_tests_cant": "unbounded number of corners, all positions and projections", "anchors": ["trunk/src/geometry/GeoPolygon_Imp.hpp: calculateNormal/calculateArea"]}
{"id": "C61", "title": "Polygon clipping by a plane", "statement": "Clipping a polygon by a plane yields only points on the inner side that lie on edges of the polygon; every vertex strictly inside is kept; and for every planar polygon, convex or not, that does not lie in the clipping plane the vector areas of the two complementary clips add up to the vector area of the polygon. A polygon lying in the clipping plane is kept by both clips.", "quantifier": "every polygon of any size and every plane", "why_tests_cant": "unbounded number of corners and all positions of the plane, including vertices on it", "anchors": ["trunk/src/geometry/GeoPolygon_Imp.hpp: clip", "trunk/src/geometry/GeoPolyline_Imp.hpp: clip/set/close"]}
{"id": "C62", "title": "Point in tetrahedron", "statement": "A tetrahedron with positive volume() contains exactly the convex combinations of its vertices, for every non-negative tolerance (the tolerance does not enlarge it). A tetrahedron with negative or zero volume(), in particular every one in right-handed vertex order, contains no point at all.", "quantifier": "all tetrahedra with finite coordinates, points and tolerances", "why_tests_cant": "a continuum of points including faces, edges and vertices", "anchors": ["trunk/src/geometry/GeoTetrahedron_Imp.hpp: contains"]}
{"id": "C63", "title": "The circle through three points passes through them", "statement": "For every three non-collinear points of a plane z = const, if the three-point constructor does not divide by zero all three points have the computed squared radius as squared distance from the computed centre; no division by zero happens when the first two sides are not vertical and the first is not horizontal. For axis-parallel sides in the wrong place the centre is not finite, and for points with different z the points are not on the circle.", "quantifier": "all triples of points", "why_tests_cant": "algebraic identity over all coordinates; the failing cases are positions of measure zero", "anchors": ["trunk/src/geometry/GeoCircle_Imp.hpp: CGeoCircle"]}
{"id": "C64", "title": "Bounding box of a sphere", "statement": "The bounding box of a sphere should contain every point the sphere contains. This holds for spheres centred at the origin; the centre is ignored, so for other spheres the box need not even contain the centre.", "quantifier": "every radius and point", "why_tests_cant": "a continuum of points", "anchors": ["trunk/src/geometry/GeoSphere_Imp.hpp: calculateBoundingBox/contains"]}
{"id": "C65", "title": "Clipping polygons to a solid", "statement": "Clipping a list of polygons to a solid is defined for every solid built from at least one polygon; every polygon that remains is part of one given, has its normal, and has no point strictly inside the solid; for flat convex polygons in exact arithmetic no point outside the solid is lost. Clipping to an empty solid reads an indeterminate plane.", "quantifier": "every tree, polygon list, tolerance and point", "why_tests_cant": "trees of unbounded depth, a continuum of points", "anchors": ["trunk/src/csg/CsgBspNode_Imp.hpp: clipPolygons/clipTo"]}
{"id": "C66", "title": "Building a BSP tree", "statement": "Building a BSP tree from flat polygons ends, gives every node a plane, stores only parts of the given polygons and (exact arithmetic, convex polygons) all of their points; the tree of a convex body has exactly the inner points of the body as its inside, and the cube of CsgCube is such a body. For a polygon that is not flat building recurses without end, and building a second time on the same tree replaces its root plane so that points inside become outside.", "quantifier": "every list of polygons, every point, every cube", "why_tests_cant": "unbounded recursion; a continuum of points", "anchors": ["trunk/src/csg/CsgBspNode_Imp.hpp: build", "trunk/src/csg/CsgCube_Imp.hpp"]}
{"id": "C67", "title": "CSG boolean operations", "statement": "The result of add consists of parts of the surface of each solid that are not strictly inside the other, and contains every such point strictly outside the other; subtract keeps the surface of the first outside the second and the surface of the second inside the first, turned inside out; intersect keeps the surface of each inside the other. For convex bodies inside and outside are those of the bodies. With an empty operand all three are undefined.", "quantifier": "all pairs of polygon sets, all pairs of convex bodies, all points", "why_tests_cant": "all pairs of solids", "anchors": ["trunk/src/csg/CsgBoolean_Imp.hpp: add/subtract/intersect"]}
{"id": "C68", "title": "Declared matrix type", "statement": "A system that is declared symmetric (the solver then uses a method valid for symmetric matrices only) has a symmetric matrix: the algebra of systems keeps this - sum and difference, scaling, scalar addition, assignment - and so do penalty and elimination. Multiplication by a vector (a variable coefficient) does not: it scales the rows and keeps the declaration. The type of a scaled field stays undeclared, and solving it returns nothing.", "quantifier": "every system, scalar and vector", "why_tests_cant": "all sizes and values", "anchors": ["trunk/src/sle/SleSystem_Imp.hpp: operator*", "trunk/src/pde/PdeEquation_Imp.hpp"]}
{"id": "C69", "title": "Implicit heat steps satisfy a maximum principle", "statement": "For every number of nodes n >= 2, spacing different from zero, time step > 0 and conductivity >= 0, the implicit one-dimensional heat equation ddt(T)/dt - alpha laplacian(T) = 0 has exactly one solution, and the temperatures after any number of steps stay between the smallest and largest of the initial and prescribed values, however large the time step.", "quantifier": "every n, spacing, time step, conductivity, initial field, set of prescribed values and number of steps", "why_tests_cant": "unbounded size and number of steps, continuum of fields", "anchors": ["trunk/src/pde/fdm/generic/FdmGenericOperators_Imp.hpp: ddt/laplacian", "trunk/src/pde/PdeEquation_Imp.hpp: solve"]}
{"id": "C70", "title": "Implicit finite-volume heat steps satisfy a maximum principle", "statement": "For every mesh with generated faces and positive volumes, areas and distances, every time step > 0 and conductivity >= 0, the implicit heat equation ddt(T)/dt - alpha laplacian(T) = 0 has exactly one solution, and after any number of steps all values stay between the smallest and largest of the initial and prescribed values. However, an element with a prescribed face forgets its own value: ddt takes the prescribed value as its old value, so the field changes even without conduction.", "quantifier": "every mesh, geometry, time step, conductivity, field, set of prescribed values and number of steps", "why_tests_cant": "unbounded meshes and step counts", "anchors": ["trunk/src/pde/fvm/generic/FvmGenericOperators_Imp.hpp: ddt/laplacian", "trunk/src/pde/PdeEquation_Imp.hpp: solve"]}
{"id": "C71", "title": "Finite volume divergence", "statement": "For every mesh with generated faces whose inner faces have opposite area vectors on their two sides, what the divergence operator takes out of one element through an inner face it puts into the other, so the volume-weighted sum of the divergence is a boundary term; a uniform field has zero divergence in every closed element all of whose faces are shared. At the boundary a uniform field with that same value prescribed should have zero divergence too; it does not, because prescribed values enter with the wrong sign.", "quantifier": "every mesh, geometry, field and set of prescribed values", "why_tests_cant": "unbounded meshes, continuum of fields", "anchors": ["trunk/src/pde/fvm/generic/FvmGenericOperators_Imp.hpp: divergence"]}
{"id": "C72", "title": "Function objects", "statement": "A function set to a constant evaluates to that constant whatever variables are defined. An expression evaluated with a given variable is evaluated with exactly that variable defined, now and for later evaluations. Hence variables defined before are forgotten, and a function set to a constant after an expression still follows the old expression when evaluated with a variable (and so in root finding).", "quantifier": "every expression language, function state, variable and value", "why_tests_cant": "arbitrary expressions and call sequences", "anchors": ["trunk/src/analytical/AnaFunction_Imp.hpp: set, defineVariable, evaluate"]}
{"id": "C73", "title": "One SPH time step", "statement": "In a step of the particle solver every particle of positive mass gets a positive density; masses, conductivities and velocities are kept; prescribed values are taken; a uniform field stays uniform for every time step; and if no free particle exchanges more than its own share in the step, all values stay within any bounds that hold for the values before the step and for the prescribed values. Without that time-step limit values leave the range.", "quantifier": "all particle sets, kernels (except the convex one), positions, velocities, fields and neighbour lists", "why_tests_cant": "arbitrary particle configurations", "anchors": ["trunk/src/solvers/SphParticles_Imp.hpp"]}
{"id": "C74", "title": "Assembled finite-element systems", "statement": "For every mesh of sound elements, of any mixture of types and with any ids, the assembled diffusion matrix is symmetric, gives nothing for constant fields and never has positive energy; on meshes of triangles, convex quadrilaterals and tetrahedra linear fields give minus the product of the gradients times the total area or volume. If ids are the positions 0, 1, 2, ..., the storage matrix is symmetric and positive semidefinite, adds up to the total area or volume, the right-hand side is that matrix times the old values, and any solution of the implicit step conserves the total amount and does not increase the energy. With element ids from 1 the storage term throws, with node ids from 1 it writes outside the vector, and meshes of prisms have no storage at all.", "quantifier": "all meshes, node positions, ids and fields", "why_tests_cant": "depends on the whole mesh and on all fields", "anchors": ["trunk/src/pde/fem/generic/FemGenericOperators_Imp.hpp: ddt, laplacian"]}
{"id": "C75", "title": "Convective heat exchange in finite elements", "statement": "Whatever the mesh, the heat transfer coefficients and the edges they are given on: if all convective conditions name one ambient temperature, that temperature, uniformly, solves the assembled steady system. But the exchange has the wrong sign: a unit beam held at 1 in surroundings at 0 gets temperature -1 at its free end for coefficient 2, and its equations have no solution for coefficient 1.", "quantifier": "all meshes, coefficients and placements of conditions", "why_tests_cant": "depends on the whole mesh and all placements", "anchors": ["trunk/src/pde/fem/thermal/FemThermalOperators_Imp.hpp: laplacian", "trunk/src/fem/thermal: setConvectionOnEdge"]}
{"id": "C76", "title": "Finite-element sources", "statement": "The source term gives each node the given value times the number of element corners at that node, for every mesh. It is therefore not an integral: the total load does not depend on the size of the elements and doubles when a beam is cut in two.", "quantifier": "all meshes and values", "why_tests_cant": "depends on the whole mesh", "anchors": ["trunk/src/pde/fem/generic/FemGenericOperators_Imp.hpp: source", "trunk/src/fem: setSourceOnNode"]}
{"id": "C77", "title": "PISO steps conserve mass in closed domains", "statement": "For every mesh, state, time step and momentum solver: if the pressure equations are solved exactly, then after the step the fluxes of every cell without open boundary (inlet or outlet) add up to zero. The pressure after a step is never negative and zero somewhere. In a closed domain the pressure equations are never contradictory. A fluid at rest in a closed domain without gravity stays at rest for any number of steps with exact solvers. With inlets and outlets the guarantee fails (the inflow counts with the wrong sign), a closed column under gravity starts to move, and the velocity after a step does not satisfy the momentum equations even when the pressure is level.", "quantifier": "all meshes in which the owner of a face comes first, all states, time steps and (for conservation) momentum solvers; any number of steps", "why_tests_cant": "conservation for all meshes and flow states; a test sees one cavity", "anchors": ["trunk/src/solvers/FvmPisoSolver_Imp.hpp: iterate, calculateVelocityField, calculatePressureField, correctFlux, correctVelocityField, checkMassConservation"]}
{"id": "C78", "title": "Gnuplot files pair values with their nodes", "statement": "If the node ids are 0 .. n-1 in order, line n of a saved nodal field holds the number, the coordinates and the value of node n. With other ids the coordinates of one node are written beside the value of another.", "quantifier": "every mesh size, all coordinates and values", "why_tests_cant": "all meshes and fields", "anchors": ["trunk/src/post/PosGnuplot_Imp.hpp: save"]}
{"id": "C79", "title": "Steady analytical solutions solve their problems", "statement": "The reference temperatures for steady conduction in the bar, the square and the cube have second derivatives adding up to zero everywhere; they vanish on the cold sides exactly; in the cube the temperature of the side x=0 is exactly half of that of the side x=1; on the hot sides they are the truncated sine series of 1, met in the middle up to 3 percent (square) and 13 percent (cube). The documented range [0,1] is exceeded in the square.", "quantifier": "all points of space", "why_tests_cant": "differential equation over all points; the tests compare a few values with solvers", "anchors": ["trunk/src/analytical/AnaTemperature_Imp.hpp: steadyStateHeatConduction1D, steadyStateHeatConduction2D, steadyStateHeatConduction3D"]}
{"id": "C80", "title": "Analytical temperature of a beam with convection", "statement": "If convection coefficient times perimeter, conductivity times section and the length are positive, the reference temperature of a beam with convection is defined everywhere, satisfies k A T'' = h P (T - Tinf), takes the two prescribed end temperatures and stays between the extremes of the end and ambient temperatures along the beam. Without convection it is undefined. The variant with radiation always answers with the lower end of its search interval, because its equation uses names it does not define.", "quantifier": "all end temperatures, coefficients and positions", "why_tests_cant": "differential equation and range over all parameters", "anchors": ["trunk/src/analytical/AnaTemperature_Imp.hpp: steadyStateHeatConduction1D, steadyStateHeatConvectionRadiation1D", "trunk/src/analytical/AnaFunction_Imp.hpp: root, defineVariable"]}
{"id": "C81", "title": "Transient analytical solutions solve the heat equation", "statement": "The reference temperatures for the cooling bar, square and cube satisfy T_t = alpha (T_xx + ...) for all points, times and alpha; the bar has zero flux at x=0 and temperature 0 at x=1, square and cube are 0 on all sides, at all times; the initial temperature 1 is met at the adiabatic end of the bar up to 1 percent and in the centre of the square up to 4 percent. In the centre of the cube the initial temperature exceeds 1.5: the sign of the third index is missing.", "quantifier": "all points, times and diffusivities", "why_tests_cant": "differential equation over all points and times", "anchors": ["trunk/src/analytical/AnaTemperature_Imp.hpp: transientHeatConduction1D, transientHeatConduction2D, transientHeatConduction3D"]}
{"id": "C82", "title": "Analytical velocity satisfies the viscous Burgers equation", "statement": "For positive viscosity and times after -1 the reference velocity tends, as the spacing goes to zero, to a function u with u_t + u u_x = mu u_xx.", "quantifier": "all positions, times after -1, viscosities and distances of the two bumps", "why_tests_cant": "limit and differential equation over a continuum", "anchors": ["trunk/src/analytical/AnaFlow_Imp.hpp: viscousBurgersEquation, phi"]}
{"id": "C83", "title": "Mesh queries answer with exactly the elements that use the nodes", "statement": "For every mesh and every node, elementsSharingNode returns every element that lists the node, once, in the order of the mesh, and nothing else. If the element ids ascend in the order of the mesh (as they do when taken from nextElementId) elementsSharingNodes returns exactly the elements that list both nodes, each once. With ids in another order elements can be missing from the answer.", "quantifier": "every mesh with valid references and every pair of nodes", "why_tests_cant": "meshes of unbounded size and all orders of ids", "anchors": ["trunk/src/mesh/MshMeshQuery_Imp.hpp: elementsSharingNode, elementsSharingNodes"]}
{"id": "C84", "title": "Extrusion puts one solid on every surface element", "statement": "For every surface mesh of triangles and quadrilaterals generate() succeeds, moves every node of the surface by the thickness against the unit sum of the unit normals of its elements and changes nothing else of the surface; the solid mesh keeps what it contained and gets, for every surface element in order, one solid with nodes of its own at the old and new positions of the element's corners. For triangles: the solids of a further layer stand exactly on the tops of those of the previous one, every side of a solid is the quadrilateral between the old and new position of one edge, and for a flat surface each prism has the volume thickness times area. For quadrilaterals the corners are listed in an order that makes twisted hexahedra.", "quantifier": "every surface mesh with valid references, every thickness, any previous contents of the solid mesh", "why_tests_cant": "meshes of unbounded size", "anchors": ["trunk/src/mesh/MshExtrudedMesher_Imp.hpp: generate"]}
{"id": "C85", "title": "Mesh checks", "statement": "After generateFaces, checkOpen answers true exactly if some face has no other face with the same nodes, that is exactly if generateFaces counted at least one boundary face. For triangle meshes checkIntersections answers true exactly if some element meets the first other element found in its neighbourhood; with more than one neighbour, crossing triangles can be missed.", "quantifier": "every mesh with valid references; every outcome of the geometric tests and of the neighbourhood search", "why_tests_cant": "meshes of unbounded size", "anchors": ["trunk/src/mesh/MshCheckMesh_Imp.hpp: checkOpen, checkIntersections", "trunk/src/mesh/MshMesh_Imp.hpp: generateFaces"]}
{"id": "C86", "title": "Assembled structural systems", "statement": "For every plane mesh of triangles with positive areas, every Young's modulus > 0 and Poisson ratio between -1 and 1, the assembled stiffness matrix exists and is symmetric, rigid motions cause no force, the internal forces of any displacement add up to zero and have no moment, affine displacements have exactly the plane-stress energy times the volume, and the energy is never negative. If the mesh hangs together across edges, only rigid motions have no energy, so that a structure held at two different places has at most one equilibrium. For every mesh of positively oriented tetrahedra rigid motions cause no force and forces and moments balance; but the matrix, declared symmetric, is not. Triangles with three unknowns per node read outside the element matrix; quadrilaterals and hexahedra have no stiffness.", "quantifier": "every mesh of triangles or tetrahedra with any ids; all material constants and displacements", "why_tests_cant": "meshes of unbounded size, all displacements", "anchors": ["trunk/src/pde/fem/structural/FemStructuralOperators_Imp.hpp: laplacian", "trunk/src/fem/structural/FemConstantStrainTriangle_Imp.hpp", "trunk/src/fem/structural/FemConstantStrainTetrahedron_Imp.hpp"]}
{"id": "C87", "title": "CSG cylinders", "statement": "For all different end points, every positive radius and at least three slices, the polygons of a CSG cylinder form a closed surface: every polygon is closed, every directed edge occurs as often as its reverse, the normals of all polygons point away from the middle of the axis, every vertex is an end point of the axis or lies on an end circle, and the enclosed volume, from any reference point, is exactly n/2 sin(2 pi/n) r^2 L, less than pi r^2 L.", "quantifier": "all end points, radii, numbers of slices and reference points", "why_tests_cant": "any number of slices; real arithmetic", "anchors": ["trunk/src/csg/CsgCylinder_Imp.hpp: create", "trunk/src/geometry/GeoPolygon_Imp.hpp: calculateNormal", "trunk/src/geometry/GeoPolyline_Imp.hpp: close"]}
{"id": "C88", "title": "CSG spheres", "statement": "For every centre, positive radius, at least three slices and two stacks, the polygons of a CSG sphere form a closed surface of slices times stacks polygons that all face outward; every vertex is at distance r from the centre; the enclosed volume is exactly 2/3 n sin(2 pi/n) cos(pi/(2m))^2 r^3, less than that of the ball. With one stack every polygon is a segment and nothing is enclosed.", "quantifier": "all centres, radii, numbers of slices and stacks", "why_tests_cant": "any number of slices and stacks; real arithmetic", "anchors": ["trunk/src/csg/CsgSphere_Imp.hpp: create"]}
{"id": "C89", "title": "Storage of STL facets", "statement": "After any additions of facets under new ids and removals of present ones, exactly the facets added and not removed are in the file, under their ids and in the order of addition; asking for any other id throws; the next id offered is larger than all ids in use. Adding another file appends its facets in order under new ids and keeps the ids of the own ones. Adding a facet under an id in use loses the old facet and lists the new one twice.", "quantifier": "all sequences of additions and removals", "why_tests_cant": "any sequence of operations", "anchors": ["trunk/src/stl/StlFile_Imp.hpp: addFacet, removeFacet, nextFacetId, facet", "trunk/src/stl/StlUtils_Imp.hpp: add"]}
{"id": "C91", "title": "Splitting the facets of a surface", "statement": "On a consistently oriented surface whose facets are linked along their common edges and numbered from 0, with a positive size (half of it larger than the machine tolerance) and a positive quality threshold, splitting ends after finitely many turns. The result is again linked and consistently oriented, has the same boundary edges, the same area and encloses the same volume from any reference point; every new facet is a part of an old one, and every facet with neighbours on all sides, an edge longer than the size and at least the given quality keeps at most two thirds of its area. The quality is twice the ratio of the radii of the inscribed and the circumscribed circle. One call need not bring all edges below the size, facets whose longest edge is on the boundary stay as they are, and with ids that do not count from 0 the links of the result are wrong.", "quantifier": "all linked surfaces, sizes and thresholds", "why_tests_cant": "loop over a growing list whose end depends on a real-valued potential; any surface", "anchors": ["trunk/src/stl/StlUtils_Imp.hpp: splitFacets, getFacetQuality", "trunk/src/geometry/GeoVector_Imp.hpp: angle"]}
{"id": "C90", "title": "Linking the facets of a surface", "statement": "After linking, every edge of a facet either has no other edge whose middle is within the tolerance and is free, or names a neighbour facet and the vertex of it that belongs to such an edge. If the only other edge near to an edge is one with the same ends run through in the opposite direction, all links go both ways, connect exactly such edges, and edges are free exactly if there is none. Only middles are compared: edges which cross in their middles are linked although they have no common point.", "quantifier": "all surfaces, tolerances and numbers of grid cells", "why_tests_cant": "any number of facets and any positions; search through a hash grid", "anchors": ["trunk/src/stl/StlUtils_Imp.hpp: generateConnectivity", "trunk/src/stl/StlFile_Imp.hpp: neighbor, whichVertexNot"]}
{"id": "C92", "title": "A surface as a mesh", "statement": "Turning a linked and consistently oriented surface into a mesh gives one triangle per facet under the number of the facet, whose nodes lie at the vertices of the facet. If the vertices of each facet are three different points and fewer than 100 corners meet at any point, neighbours share the two nodes of their common edge, the nodes are numbered from 0 and every node belongs to a triangle. Taking the facets from that mesh again gives the same facets under the same numbers, without links. On linked surfaces which are not consistently oriented triangles get wrong nodes, and around a point with more than 100 facets neighbours do not share nodes.", "quantifier": "all linked and oriented surfaces with up to a third of the largest integer of facets", "why_tests_cant": "walks around every vertex in both directions, open and closed; any surface", "anchors": ["trunk/src/stl/StlUtils_Imp.hpp: mesh, set"]}
{"id": "C93", "title": "Orienting a surface like one of its facets", "statement": "On a surface whose facets are linked along common edges longer than the tolerance, and which can be oriented consistently at all, orienting it like a given facet ends, leaves the given facet and all facets not connected to it alone, exchanges two vertices of some of the others, keeps the links and who is a neighbour of whom, and afterwards every two neighbours reachable from the given facet run through their common edge in opposite directions; if the surface is connected, it is consistently oriented. Asking for an outward orientation instead of giving a facet overwrites the first facet with the last one.", "quantifier": "all linked orientable surfaces, tolerances and starting facets", "why_tests_cant": "breadth-first search over any surface which changes the surface while it runs", "anchors": ["trunk/src/stl/StlUtils_Imp.hpp: setOrientation, invertFacet"]}
{"id": "C94", "title": "What geometric objects remember", "statement": "Asking a triangle, quadrilateral, tetrahedron, hexahedron, prism or polygon for its centroid, normal and area, box, surface area or volume computes it from the present vertices if recalculation is asked for or nothing of that kind is remembered, and otherwise returns what is remembered. What is remembered was computed from the vertices at some earlier moment and nothing done since, except a forced recalculation or a reset which forgets it, changes it: adding, moving, removing and reordering vertices do not. After a reset triangles and quadrilaterals have no vertices and remember nothing; a tetrahedron keeps its centroid and a hexahedron or prism keeps even its vertices. Containment in a tetrahedron is decided for the present vertices if no box or the present box is remembered, and can be wrong otherwise.", "quantifier": "all sequences of calls on an object of any of these shapes", "why_tests_cant": "histories of any length which mix editing, measuring and resetting", "anchors": ["trunk/src/geometry/GeoVertexList_Imp.hpp: addVertex, insertVertex, removeVertex, setVertex, invert", "trunk/src/geometry/GeoTriangle_Imp.hpp: calculateCentroid, calculateNormal, calculateBoundingBox, reset", "trunk/src/geometry/GeoTetrahedron_Imp.hpp: calculateVolume, calculateCentroid, contains, reset", "trunk/src/geometry/GeoVolume_Imp.hpp: reset", "trunk/src/geometry/GeoArea_Imp.hpp: reset", "trunk/src/geometry/GeoHexahedron_Imp.hpp: reset", "trunk/src/geometry/GeoTriangularPrism_Imp.hpp: reset"]}
{"id": "C95", "title": "Cleaning a surface", "statement": "The statistics of a surface with facets are the tight bounding box of their corners. Checking the edges marks exactly those without neighbour as naked. Removing invalid facets ends and keeps, in order and unchanged, exactly the facets whose sides are all at least as long as the tolerance and which have an edge not marked as naked; the facets left may still name removed ones as neighbours. Removing duplicate facets leaves a surface alone whose facets have middles farther apart than the tolerance; but a facet stored twice makes it throw, and of two facets with the same middle and different areas one is lost.", "quantifier": "all well stored surfaces, tolerances and numbers of grid cells", "why_tests_cant": "loops whose index and bound change while they run; any number of facets; comparisons of lengths and areas", "anchors": ["trunk/src/stl/StlUtils_Imp.hpp: calculateStatistics, removeInvalidFacets, removeDuplicateFacets, checkEdges", "trunk/src/stl/StlFile_Imp.hpp: removeFacet"]}
{"id": "C96", "title": "Triangulating a region by an advancing front", "statement": "When the two-dimensional mesher, given a boundary of beams, reports success, the mesh it returns fills exactly the region between the beams: its nodes lie where the boundary nodes and interior points were or at new places, two nodes are joined by an odd number of triangle sides exactly if they are the ends of an odd number of beams, and all ends of such beams are present. Every element is a triangle with three different corners, counter-clockwise, whose unit normal has a z above the tolerance, and every node is used. If no two sides run the same way between the same nodes, the areas of the triangles add up to the enclosed area. A boundary with an end that meets no other beam is never accepted. This holds whatever the tests of distance, angle, quality and intersection answer. But interior points of one call remain candidates in the next one of the same mesher, which can make it fail, and so does an element in front of the beams which is no beam.", "quantifier": "all boundaries, interior points, tolerances, limits and numbers of steps, and all answers of the geometric tests", "why_tests_cant": "a front of any shape which closes on itself in any order; parity of sides is a global invariant", "anchors": ["trunk/src/mesh/MshTriangleMesher_Imp.hpp: generate, advancingFrontTriangulation, addTriangle, cleanDuplicateEdges, adjustConnectivity, edgeExists, findClosestNodes, frontSize"]}
{"id": "C97", "title": "Improving a triangle mesh by flipping edges and moving nodes", "statement": "Given a mesh of counter-clockwise triangles with generated faces, flipping edges succeeds and changes only how triangles join the nodes: nodes, element numbers and types, and elements that are no triangles stay; all triangles stay counter-clockwise with three different corners; inside stays inside and boundary stays boundary, with the same sense; the area stays the same; and the worst quality does not get worse. Moving nodes succeeds and changes only positions: boundary nodes and nodes of no triangle stay, no node leaves a half space that contains all nodes, triangles stay counter-clockwise, the sum of the qualities does not decrease and increases if anything moved, and the area stays the same. Generating the faces of a mesh in which no two sides run the same way between the same nodes prepares it for both, also after flipping. But if the faces were never generated, moving nodes moves the boundary and area is lost.", "quantifier": "all meshes, quality functions and tolerances", "why_tests_cant": "a sweep over all edges or nodes where every decision depends on what earlier ones changed", "anchors": ["trunk/src/mesh/MshTriangleMesher_Imp.hpp: flipEdges, relaxNodes"]}
{"id": "C98", "title": "Temperature in a flow on control volumes", "statement": "With one density and one specific heat, positive conductivities and a flow that is balanced in every cell, a time step of the temperature solver has exactly one solution, and its temperatures lie in every range that contains the old temperatures, those flowing in, and those of the boundary faces divided by the volume of the cell behind; so a uniform temperature stays if cells have volume 1. If the conductivity of all cells is that of the boundary (1), the heat gained in a step is what entered through the boundary. Between walls, together with the flow solver, any number of steps keeps the temperatures in the range of start and walls. But in cells whose volume is not 1 a uniform temperature with walls of the same temperature changes, and with another conductivity the result depends on the order in which a cell lists its faces.", "quantifier": "all meshes, materials, fluxes, temperatures, time steps and numbers of steps", "why_tests_cant": "ranges of the solution of a linear system of any size, for every flow", "anchors": ["trunk/src/solvers/FvmTemperatureSolver_Imp.hpp: CFvmTemperatureSolver, iterate, calculateTemperatureField, setMaterialProperties, setBoundaryTemperature"]}
{"id": "C99", "title": "Flow on finite elements", "statement": "In a triangle in the plane z = 0 with counter-clockwise corners, and in a tetrahedron of positive volume whose last two corners have the same velocity along x, the convective matrix applied to a linear field gives the integral of test field times velocity times gradient, less time step times size times the derivatives of test field and field along the mean velocity, and nothing for a constant field; the gradient matrices, also assembled over any mesh of such elements, give the derivative of a linear field times the integral of the test field, and nothing for constants. A step of the velocity-pressure solver with an exact solver leaves a uniform stream as it is and makes the pressure uniform, in two and in three dimensions, on every mesh of non-degenerate elements covering all nodes, for every density, viscosity, time step and pressure before. In general the step finds the fields that satisfy, at every node that is not fixed: storage of the change of velocity per time step plus convection (by the velocities already renewed) equals kinematic viscosity times Laplacian plus gravity; Laplacian of pressure equals divergence per time step; storage of the correction equals minus time step over density times the gradient of pressure. But: a tetrahedron with different velocities along x at its last two corners convects a uniform field; the stabilising term is subtracted, so it is a negative diffusion along the stream; gravity does not see the size of elements; the density divides the correction but does not enter the pressure, so two fluids of the same kinematic viscosity move differently; triangles off the plane z = 0 use axes of their own, and clockwise triangles turn gradients round.", "quantifier": "all triangles and tetrahedra, linear fields, velocities, time steps, materials, meshes and fixed values as described; every solver that finds unique solutions", "why_tests_cant": "exactness on a continuum of fields and shapes, and equality of a whole step on meshes of any size, are not observable on sample meshes", "anchors": ["trunk/src/fem/flow/FemFlowTriangle_Imp.hpp: setConvectiveTerm, setGradientTerm", "trunk/src/fem/flow/FemFlowTetrahedron_Imp.hpp: setConvectiveTerm, setGradientTerm", "trunk/src/pde/fem/flow/FemFlowOperators_Imp.hpp: ddt, laplacian, divergence, gradient", "trunk/src/solvers/FemCbsSolver_Imp.hpp: CFemCbsSolver, iterate, calculateVelocityField, calculatePressureField, correctVelocityField"]}
{"id": "C100", "title": "Coarsening a triangulation by collapsing short edges", "statement": "On every mesh of triangles with faces, with two boundary nodes at different places, collapsing edges for a given size succeeds. Nodes of boundary faces stay where they are; any other node moves, if at all, in hops shorter than three quarters of the size to places of nodes. Nodes of the result are further apart than the tolerance and every old node is represented by one within the tolerance of where it went. Ids are renumbered from 0 in the old order. Triangles that remain do so in order, with the same corners and three different ones; a triangle goes only if corners of it fall together or a side ending at a node not on the boundary became shorter than three quarters of the size; the first triangle of which this holds from the beginning does go. If there is none and nodes are apart, nothing changes but numbers. Without tolerance the area of the result and that of the triangles that went, measured where their corners ended up, make the area before; so nothing is lost if these have become flat. The faces fit again if no two triangles run the same way along a side. But triangles can go without having become flat: a size above the extent of a square cut in four takes half of it away; and triangles can be turned over.", "quantifier": "all triangle meshes with faces, sizes and tolerances", "why_tests_cant": "the outcome depends on the order of triangles, on moves made before and on merging and renumbering together; covering all of them needs an invariant", "anchors": ["trunk/src/mesh/MshTriangleMesher_Imp.hpp: collapseEdges", "trunk/src/mesh/MshMesh_Imp.hpp: mergeNodes, renumber, generateFaces"]}
{"id": "C101", "title": "The convex hull contains all points and only points given", "statement": "For three or more distinct points at one height, the first three not in line, the constructor of CGeoConvexHull and set() give the convex hull: its vertices are points given, each once, three at least; no point lies to the left of a side (seen from the side from which the first three points turn anticlockwise, so the hull is gone round clockwise); and in no direction does a point reach farther than all vertices. The same holds in a tilted plane as long as a number depending on the first three points only is not zero. Outside of this the result can be wrong: a point given twice is returned although it is inside, in a vertical plane or if the first three points are in line points inside are returned, even twice. Fewer than three points give nothing, and set() adds to the vertices already there.", "quantifier": "every list of distinct points in a plane", "why_tests_cant": "the one test has seven points; the order, number and position of points are unbounded", "anchors": ["trunk/src/geometry/GeoConvexHull_Imp.hpp: set", "trunk/src/geometry/GeoConvexHull.hpp: SVertex", "trunk/src/geometry/GeoCoordinate_Imp.hpp: transform"]}
{"id": "C102", "title": "A search finds all boundary faces near a point and no others", "statement": "After set() and build() on a mesh with two boundary faces at different places, findClosestBoundaryFaces(q, d) returns exactly the ids of the boundary faces (those without a pair) whose centroid is nearer to q than d, each once, whatever the vector held before. It returns whenever there is such a face or q lies between the extreme coordinates of the centroids; for a point too far away, or if all centroids are the same, cell indices overflow. build() called twice without set() makes faces appear twice.", "quantifier": "every mesh, point and distance, every number of cells of the grid", "why_tests_cant": "the search depends on how points fall into cells; a missed cell shows only for particular positions", "anchors": ["trunk/src/fvm/FvmMeshSearch_Imp.hpp: set/build/findClosestBoundaryFaces", "trunk/src/geometry/GeoHashGrid_Imp.hpp"]}
{"id": "C103", "title": "Improving a tetrahedral mesh keeps the region, its volume and the worst quality", "statement": "On a mesh of tetrahedra of positive volume, no two on the same side of three nodes, prepared by generateFaces: flipEdges23 (two tetrahedra at a face become three around an edge) returns, changes no node, keeps the ids and types of all elements and the nodes of those that are no tetrahedra, and adds only tetrahedra; every tetrahedron keeps four different corners and at least the volume tolerance^3; which triangles are inner and which are boundary, and with which sense, stays the same, so does the total volume; the worst quality does not get worse. relaxNodes returns, changes only positions, never those of boundary nodes, keeps every tetrahedron at volume tolerance^3 or more, does not worsen the worst quality, and keeps the total volume. Not guaranteed: a node of no element is moved towards the origin, and the result depends on where the mesh lies, as the centre is summed up wrongly.", "quantifier": "every such mesh, every measure of quality that does not depend on the order of the corners, every tolerance and factor", "why_tests_cant": "an operation that loses or overlaps volume shows only for particular neighbourhoods in large meshes", "anchors": ["trunk/src/mesh/MshTetrahedronMesher_Imp.hpp: flipEdges23/relaxNodes", "trunk/src/mesh/MshMesh_Imp.hpp: generateFaces"]}
{"id": "C104", "title": "Replacing three tetrahedra around an edge by two keeps the region, its volume and the worst quality", "statement": "On a mesh of tetrahedra of positive volume, no two on the same side of three nodes, prepared by generateFaces, with ids in ascending order, in which no tetrahedron has two different inner edges belonging to exactly three tetrahedra: flipEdges32 returns, changes no node, adds no element, and leaves the nodes of tetrahedra without such an edge as they are; every element of the result is a tetrahedron with four different corners and at least the volume tolerance^3; which triangles are inner and which are boundary, and with which sense, stays the same, so does the total volume; the worst quality does not get worse. Not guaranteed if a tetrahedron has two such edges: the second flip overwrites what the first has made, and the mesh gets a hole.", "quantifier": "every such mesh, every measure of quality that does not depend on the order of the corners, every tolerance", "why_tests_cant": "whether flips interfere depends on the numbering and the neighbourhood of each edge in the mesh; tests use a few meshes", "anchors": ["trunk/src/mesh/MshTetrahedronMesher_Imp.hpp: flipEdges32", "trunk/src/mesh/MshMeshQuery_Imp.hpp: elementsSharingNodes", "trunk/src/mesh/MshMesh_Imp.hpp: generateFaces/removeElement"]}
{"id": "C105", "title": "Improving a mesh of quadrilaterals and triangles keeps the region", "statement": "On a mesh of counter-clockwise triangles and convex quadrilaterals, no two running the same way along a side, prepared by generateFaces: flipEdges of the quadrilateral mesher returns and changes neither nodes nor element ids and types; every triangle and quadrilateral keeps different corners, stays counter-clockwise and steeper than the tolerance, and quadrilaterals stay convex; which sides are inner and which are boundary, and with which sense, stays the same, so does the total area; the worst quality does not get worse. relaxNodes of the quadrilateral mesher returns, changes nothing but positions of nodes at which an inner side begins, and moves no node out of a half space containing all nodes. Not guaranteed by relaxNodes: quadrilaterals may lose their convexity, and whether a node is moved depends on the corner with which the list of a quadrilateral begins.", "quantifier": "every such mesh, all measures of quality that do not depend on the corner one begins with, every tolerance >= 0", "why_tests_cant": "flips depend on the order of faces and on what earlier flips have changed; tests use a few meshes and look at counts", "anchors": ["trunk/src/mesh/MshQuadrilateralMesher_Imp.hpp: flipEdges/relaxNodes", "trunk/src/mesh/MshMesh_Imp.hpp: generateFaces"]}
{"id": "C106", "title": "Flipping edges of an STL surface keeps its boundary and its vertices", "statement": "On a surface whose facets are correctly connected, flipEdges returns; it changes neither the number nor the ids of facets nor the set of vertices; for any two points as many more edges run from the one to the other than back as before, so a closed surface stays closed and a boundary stays; every facet is unchanged or has been exchanged together with one neighbour for the two facets along the other diagonal, the worse of which is better than before, and if the remembered normals were right the two enclosed an angle below the given one (or the first had hardly any area); the worst quality of all facets does not decrease. Not guaranteed: the tests of the change of normals and of the total area compare remembered values and always pass, so a facet can be turned over; the recorded neighbours and normals are not updated.", "quantifier": "every connected surface, every angle, whatever normals are remembered", "why_tests_cant": "which flips are done depends on earlier ones, on recorded neighbours and on remembered normals; the test counts facets of one box", "anchors": ["trunk/src/stl/StlUtils_Imp.hpp: flipEdges/getFacetQuality", "trunk/src/geometry/GeoTriangle_Imp.hpp: calculateNormal/calculateArea", "trunk/src/geometry/GeoVertexList_Imp.hpp: insertVertex"]}
{"id": "C107", "title": "Relaxing the vertices of an STL surface does not tear it", "statement": "On a correctly connected surface whose facets have the ids 0, 1, 2, ... and in which no facet is met twice around a vertex, relaxVertices returns; facets that met along an edge still do, neighbours are the same, the boundary is in the same place, the start of every edge marked as outline stays where it is, and no vertex leaves the convex hull of the vertices. Not guaranteed: when normals have been calculated before, the test of their change always passes and facets can be turned over; when the ids of facets are not their positions, the surface can be torn.", "quantifier": "every such surface, every choice of outlines, whatever normals are remembered", "why_tests_cant": "every vertex is moved several times in an order given by the facets; the test counts facets of one box", "anchors": ["trunk/src/stl/StlUtils_Imp.hpp: relaxVertices/checkEdges", "trunk/src/geometry/GeoTriangle_Imp.hpp: calculateNormal"]}
{"id": "C108", "title": "Qualities of elements lie between 0 and 1 and the mesh summary is their minimum, maximum and mean", "statement": "The quality of a triangle with sides longer than about 1.5e-8, of a quadrilateral that is not a single point, of any tetrahedron and of a prism with such triangles at its ends is between 0 and 1. It is 1 exactly for equilateral triangles, squares, regular tetrahedra, and prisms with two equilateral ends; it is 0 for triangles without area and exactly for tetrahedra without volume. It is twice the ratio of inscribed and circumscribed radius (triangle), four times the area over the sum of squared sides (quadrilateral with halves facing the same way), 2 sqrt 6 times the inscribed radius over the longest edge (tetrahedron), the mean of the ends (prism). quality gives these numbers and meshQuality their minimum, maximum and mean, each extreme attained by an element; 1, 0, 0 for a mesh without elements. Not guaranteed: a triangle shorter than 1.5e-8, even a single point, has quality 4/3; prisms without height and hexahedra of any shape have quality 1; a quadrilateral with a reflex corner can beat a rectangle; after a quadrilateral that is a single point (0/0) the summary forgets all earlier elements.", "quantifier": "all triangles, quadrilaterals, tetrahedra, prisms with exact coordinates; all meshes of any elements", "why_tests_cant": "bounds over all shapes are geometric inequalities; tests try a few shapes; not-a-number in the middle of a mesh needs a degenerate element in the right place", "anchors": ["trunk/src/mesh/MshTriangle_Imp.hpp: calculateQuality", "trunk/src/mesh/MshQuadrilateral_Imp.hpp: calculateQuality", "trunk/src/mesh/MshTetrahedron_Imp.hpp: calculateQuality", "trunk/src/mesh/MshTriangularPrism_Imp.hpp: calculateQuality", "trunk/src/mesh/MshMesh_Imp.hpp: quality/meshQuality", "trunk/src/geometry/GeoVector_Imp.hpp: angle"]}
{"id": "C109", "title": "Remeshing a triangulation cuts long inner sides in two and keeps region and boundary", "statement": "For a mesh of counter-clockwise triangles with its generated faces, element ids 0, 1, ..., n-1 and a positive size, remesh ends and gives again such a mesh with its faces, so it can be repeated. Every node keeps its id and place; every new node is the middle of a side longer than 1.5 times the size. Boundary sides stay boundary with the same sense, inner sides cancel, and the area is the same. Each triangle keeps its corners or gets a new node as corner, and there is one triangle more for each that was cut, so at most twice as many. Of two triangles that share a side longer than 1.5 times the size at least one is cut. Not guaranteed: boundary sides are never cut; with other element ids the flags are read outside of their vector; a quadrilateral next to a long side is torn apart and area is lost.", "quantifier": "all triangulations of any number of triangles, all sizes, exact coordinates", "why_tests_cant": "which side of which triangle is cut depends on the order of elements and faces; tests only see a few meshes and rarely compare areas and boundaries", "anchors": ["trunk/src/mesh/MshTriangleMesher_Imp.hpp: remesh", "trunk/src/mesh/MshMesh_Imp.hpp: generateFaces"]}
{"id": "C110", "title": "Remeshing beams divides each into equal pieces nearest to the wanted size", "statement": "For a mesh of beams, not all of length zero, and a positive size, remesh ends: it visits exactly as many elements as there are then. Every node keeps its id and place. Each beam becomes a row of beams in equal steps from its first to its second node, the last of them keeping its id; their number is length / size rounded to the nearest whole number, but at least one. There are no other elements, and one node more for each beam more. All beams are then shorter than 1.5 times the size, and beams that are so already are not changed by remesh. Not guaranteed: a size of 0 has no defined outcome.", "quantifier": "all meshes of any number of beams, all positive sizes, exact coordinates", "why_tests_cant": "the loop also visits the beams it adds: that it ends and cuts nothing twice is a statement about all lengths and sizes", "anchors": ["trunk/src/mesh/MshTriangleMesher_Imp.hpp: remesh", "trunk/src/mesh/MshMesh_Imp.hpp: generateFaces"]}
{"id": "C111", "title": "Fields keep fixed values, sources, conditions and materials apart", "statement": "On a new field with a given positive number of unknowns per node, after any sequence of calls that succeeds: the fixed value or source found for an unknown of a node, the condition found for a node, a face or a side of an element, and the material found for an element are what they would be had only the calls about that very place been made; what was set there last is found there. nodeHasBC, faceHasBC and hasMaterial hold exactly if one was added; a sequence throws exactly if the condition of a node or face or the material of an element is asked for before one was added. Adding a value to a condition keeps its kind and its other values. Values of the solution stay until set again or the size changes. Not guaranteed: before setNbDofs, or with an unknown beyond that number, fixed values of different nodes replace each other; asking for the condition of a side of an element without one creates a fixed-value condition there, so elementHasBC holds if one was added or asked for; a condition asked for a value it was not given answers 0; changing the size loses all values.", "quantifier": "all sequences of calls, of any length, all indices and values", "why_tests_cant": "that no call disturbs another place is a statement about all sequences of calls and all pairs of places", "anchors": ["trunk/src/pde/PdeField_Imp.hpp: setFixedValue, setSource, addMaterial, material, addBCNode, nodeBC, addBCFace, faceBC, addBCElement, elementBC, setSize, setValue, value", "trunk/src/pde/PdeBoundaryCondition_Imp.hpp: addCondition, conditionValue", "trunk/src/material/MatMaterial_Imp.hpp: addProperty"]}
{"id": "C112", "title": "A fixed boundary takes the pair away from exactly the faces on its edges", "statement": "On a consistent surface mesh with faces, two of them with different centres, and a consistent mesh of edges whose centres are inside the box of the centres of the faces (up to the tolerance), applyFixedBoundary succeeds: a face is without a pair afterwards exactly if it was before or its centre is within the tolerance of the centre of an edge; all other faces keep their pair; ids, order, nodes, elements and the rest of each face stay. Every face whose nodes are at the places of the nodes of an edge is so fixed, on both sides. Not guaranteed: an edge that only shares its centre with a face fixes that face too; an edge far from the surface has no defined outcome.", "quantifier": "all surface meshes, all meshes of edges, all tolerances, exact coordinates", "why_tests_cant": "that exactly these faces change is a statement about all meshes and positions", "anchors": ["trunk/src/mesh/MshTriangleMesher_Imp.hpp: applyFixedBoundary", "trunk/src/mesh/MshFace_Imp.hpp: setHasPair"]}
{"id": "C113", "title": "Collapsing naked edges moves nodes along the shortest edges of the boundary only", "statement": "On a consistent mesh collapseNakedEdges succeeds and changes nothing but places of nodes: each node ends where some node was that can be reached from it along naked edges (lines without a pair) in their direction; nodes where no naked edge begins stay. With the default tolerance 0 nothing changes. Let l be the least length of naked edges plus the tolerance: if no two naked edges shorter than l share a node and the others are at least 3 l long, then exactly the first nodes of the edges shorter than l move, to the second node, so the shortest edges get length 0. Not guaranteed: short edges that share nodes may be open again afterwards.", "quantifier": "all meshes with lines as faces, all tolerances, exact coordinates and exact (real) lengths", "why_tests_cant": "nodes move while later edges are still to be measured: which edges are collapsed is a statement about all meshes and orders", "anchors": ["trunk/src/mesh/MshMesh_Imp.hpp: collapseNakedEdges"]}
{"id": "C114", "title": "A triangle contains its points, and the distance to it is that to the point handed back", "statement": "For a triangle with area: with a tolerance above 0 contains(point) is true for every point of the triangle, sides included, and distance gives 0 and the point itself. A point of the plane that is contained is within the tolerance of a vertex or has barycentric weights above -tolerance/(2 area); IT_VERTEX is only answered within the tolerance of a vertex. distance hands back a vertex or the foot of the perpendicular if that is contained, the distance is the one to the point handed back, at most that to each vertex, and with a contained foot at most that to every point of the plane. Not guaranteed: IT_EDGE is never answered when 2 area is at least 3 tolerances, so points of sides are IT_INTERNAL; points off the plane of an oblique triangle can be contained; beside a side the distance is that to a vertex and not to the side.", "quantifier": "all triangles with area, all points, all tolerances (above 0 for points of the triangle), exact real arithmetic", "why_tests_cant": "points and triangles are a continuum; the answers near sides and off the plane are statements about all of them", "anchors": ["trunk/src/geometry/GeoTriangle_Imp.hpp: contains, distance, calculateNormal, calculateBoundingBox", "trunk/src/geometry/GeoPlane_Imp.hpp: distance", "trunk/src/geometry/GeoBoundingBox_Imp.hpp: contains"]}
{"id": "C115", "title": "Lines and triangles that cross a triangle are found, and ones that are apart are not", "statement": "For a triangle with area whose normal was calculated, a line (segment) with a point in common with the triangle intersects it, with that point handed back, if it is not nearly parallel (normal times vector above tolerance^2); conversely a point handed back is in the plane, on the line up to the tolerance beyond its ends, and within the tolerance of a vertex or with weights above -tolerance/(2 area). Two triangles with area, in planes that are not nearly parallel, intersect if a side of one has a point in common with the other, not within the tolerance of the other's vertices and not nearly parallel to its plane. A triangle all of whose vertices are points of the other intersects it. Triangles more than the tolerance apart along an axis, or on one side of the first one's plane by more than it, do not intersect. Not guaranteed: intersects for a line does not calculate the normal, so on a fresh triangle no line intersects; overlapping triangles of opposite orientation in one plane not through the origin may not intersect.", "quantifier": "all triangles with area, all lines, all tolerances above 0, exact real arithmetic, any intersection of two lines within a plane", "why_tests_cant": "crossing is a relation on a continuum of pairs; tests can sample positions only", "anchors": ["trunk/src/geometry/GeoTriangle_Imp.hpp: intersects", "trunk/src/geometry/GeoLine_Imp.hpp: intersects", "trunk/src/geometry/GeoBoundingBox_Imp.hpp: intersects"]}
{"id": "C116", "title": "Centroids asked for by id are the means of the nodes of that face or element", "statement": "On a consistent mesh whose indices agree with the positions, calculateElementCentroid and calculateFaceCentroid succeed, and elementCentroid(id) and faceCentroid(id) then give the mean of the nodes of exactly that element or face and throw for an id without one. Removing elements afterwards leaves the centroids of the others right as long as they are not calculated again. After rebuildIndices they are right again whatever the indices were. Not guaranteed: calculated again after removeElement without rebuildIndices, an element gets the centroid of another one, or an exception.", "quantifier": "all meshes, all sequences of removed elements, exact coordinates", "why_tests_cant": "positions, indices and ids come apart depending on the whole history of the mesh", "anchors": ["trunk/src/mesh/MshMesh_Imp.hpp: calculateFaceCentroid, calculateElementCentroid, faceCentroid, elementCentroid, removeElement, rebuildIndices"]}
{"id": "C117", "title": "Points of a line are contained in it and lines that cross meet at the common point", "statement": "A point of a line (segment) other than its start, both the line and the distance to the start not negligible (squares above the machine epsilon), is contained, as IT_VERTEX exactly if within the tolerance, as a part of the length, of an end and as IT_INTERNAL otherwise. A contained point has its foot on the line up to the tolerance beyond the ends and is seen from the start within one degree of the direction of the line. Two lines that are not nearly parallel (cross product above the tolerance) and have a point in common that is not at the start of the second meet; if no ends are within the tolerance of each other the point handed back is the common one. A line that goes straight on from the end of another, both longer than the tolerance, meets it there as IT_VERTEX. Two lines of one start and direction whose ends are more than the tolerance apart meet as IT_INTERNAL at the start. Two lines along one straight line with a point in common and no two of their four ends within the tolerance of each other meet as IT_INTERNAL at one of the ends, which lies on the other line up to the tolerance beyond its ends. Not guaranteed: a line does not contain its own start, and a line that begins on another does not meet it, though it does when turned round; for two lines upon each other with a common end the point handed back may be far from the second line. Parallel lines that stay apart by many times the tolerance can be said to meet, since points are looked for within one degree.", "quantifier": "all lines made from two points, all points, all tolerances, exact real arithmetic with the arc cosine", "why_tests_cant": "positions are a continuum; that a line and the same line turned round are treated differently shows only on exact touching", "anchors": ["trunk/src/geometry/GeoLine_Imp.hpp: contains, intersects", "trunk/src/geometry/GeoVector_Imp.hpp: angle", "trunk/src/geometry/GeoBoundingBox_Imp.hpp: intersects"]}
