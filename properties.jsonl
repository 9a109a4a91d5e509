{"id": "C01", "title": "Orientation is the sign of the signed area", "statement": "orientation(a,b,c) answers Counterclockwise/Clockwise exactly when the signed parallelogram area of a,b,c is above/below the tolerance band of width 1e-14 and Colinear inside the band; the answer is unchanged by cyclic rotation of the arguments and by translation, and swapping two arguments exchanges Clockwise and Counterclockwise.", "quantifier": "all triples of points with real coordinates", "why_tests_cant": "infinitely many triples, including arbitrarily thin ones next to the tolerance band", "anchors": ["src/properties/orientation.rs: orientation", "src/properties/parallel.rs: parallel"]}
{"id": "C02", "title": "In-circle test", "statement": "For a counterclockwise triangle a,b,c, continence(a,b,c,d) is Inside/Outside exactly when d is nearer to/farther from the circumcentre than the corners, up to the 1e-14 band on the determinant; rotating the corners does not change the answer and reversing them swaps Inside and Outside.", "quantifier": "all quadruples of points with real coordinates, the first three counterclockwise", "why_tests_cant": "needs an algebraic identity over all quadruples; samples never cover near-cocircular cases", "anchors": ["src/properties/continence.rs: continence", "src/elements/triangle.rs: Triangle::encircles"]}
{"id": "C03", "title": "Circumcenter", "statement": "circumcenter(a,b,c) is Some exactly when the three points are not collinear, and the returned point is at the same distance from all three; it is the only such point.", "quantifier": "all triples of points with real coordinates", "why_tests_cant": "existence and uniqueness over a continuum", "anchors": ["src/properties/circumcenter.rs: circumcenter", "src/elements/triangle.rs: Triangle::circumcenter"]}
{"id": "C04", "title": "Encroachment is membership in the diametral disc", "statement": "encroach(v1,v2,v) is Inside/Outside exactly when v is strictly inside/outside the disc having segment v1v2 as diameter, up to the 1e-14 band; the answer is symmetric in v1,v2 and the midpoint always encroaches a segment longer than 2e-7.", "quantifier": "all triples of points", "why_tests_cant": "geometric equivalence over a continuum", "anchors": ["src/properties/encroachment.rs: encroach", "src/elements/edge.rs: Edge::encroach"]}
{"id": "C05", "title": "Segment intersection is sound", "statement": "Whenever intersection(v1,v2,v3,v4) returns a point, the point lies on both supporting lines (exactly if the segments are not parallel, within tolerance if they are) and within tolerance of the bounding boxes of both segments.", "quantifier": "all pairs of segments, degenerate and collinear ones included", "why_tests_cant": "false positives hide in unsampled configurations", "anchors": ["src/properties/intersection.rs: intersection, intersection_vertex, intersection_region"]}
{"id": "C06", "title": "Segment intersection is complete", "statement": "If two closed segments share a point, intersection(v1,v2,v3,v4) returns a point, whatever the position (crossing, touching, overlapping, degenerate to a point), and the result does not depend on the order in which the two segments are given.", "quantifier": "all pairs of segments sharing a point", "why_tests_cant": "quantifies over all pairs of segments and the shared point", "anchors": ["src/properties/intersection.rs: intersection"]}
{"id": "C07", "title": "Bounding boxes", "statement": "BoundingBox::from_vertices returns None only for an empty list, otherwise the least box containing every vertex; contains, intersection and union agree with membership of points; union_list is the least upper bound.", "quantifier": "all lists of vertices and of boxes of any length", "why_tests_cant": "any length and any coordinates", "anchors": ["src/elements/bounding_box.rs: BoundingBox"]}
{"id": "C08", "title": "Point in polygon agrees with the winding number", "statement": "For a closed polyline and a point that is not reported as Boundary, Polyline::contains answers Inside exactly when the winding number of the polyline around the point (counted with an independent half-open ray) is not zero; Boundary is reported exactly for the points level with a side and within the collinearity tolerance of its line, in particular for every point of a side.", "quantifier": "all closed polylines with at least one vertex, self-intersecting ones included, and all points", "why_tests_cant": "requires a global argument along the whole polyline, including vertices aligned with the ray", "anchors": ["src/elements/polyline.rs: Polyline::contains"]}
{"id": "C09", "title": "Point in triangle", "statement": "The polyline of a triangle reports Inside exactly for the points strictly inside it, Outside for the points strictly outside, Boundary near its sides.", "quantifier": "all triangles of both orientations and all points", "why_tests_cant": "continuum of cases, including degenerate alignment of a corner with the query point", "anchors": ["src/elements/triangle.rs: Triangle::as_polyline", "src/elements/polyline.rs: Polyline::contains"]}
{"id": "C10", "title": "Polygon containment does not depend on the starting vertex nor on the direction", "statement": "Rotating the vertex list of a closed polyline or reversing it leaves Polyline::contains unchanged for every point.", "quantifier": "all closed polylines, all points, all rotations", "why_tests_cant": "unbounded number of vertices and rotations", "anchors": ["src/elements/polyline.rs: Polyline::contains"]}
{"id": "C11", "title": "Triangle quality is circumradius over shortest edge", "statement": "For every counterclockwise triangle, quality() equals the circumradius divided by the length of the shortest edge and is at least 1/sqrt 3; quality is invariant under rotation of the corners; ghosts have none.", "quantifier": "all counterclockwise triangles", "why_tests_cant": "real-algebraic identity and inequality over all triangles", "anchors": ["src/elements/triangle.rs: Triangle::quality"]}
{"id": "C12", "title": "Areas", "statement": "Triangle::area is the signed area (positive iff counterclockwise); the area of a closed chain of segments is minus its shoelace area, invariant under rotation of the chain and negated by reversal.", "quantifier": "all triangles and all closed chains of any length", "why_tests_cant": "any number of segments", "anchors": ["src/properties/area.rs: area", "src/elements/triangle.rs: Triangle::area"]}
{"id": "C13", "title": "Angles", "statement": "angle(a,b,c) is between 0 and 2 pi and its cosine is the normalised dot product of ba and bc whenever b differs from a and c.", "quantifier": "all triples of points", "why_tests_cant": "continuum", "anchors": ["src/properties/angle.rs: angle"]}
{"id": "C14", "title": "Midpoints", "statement": "midpoint and Edge::midpoint return the point at half distance on the segment; the midpoint of an edge touching a ghost vertex is a ghost for the former and not for the latter.", "quantifier": "all pairs of vertices", "why_tests_cant": "continuum", "anchors": ["src/properties/midpoint.rs: midpoint", "src/elements/edge.rs: Edge::midpoint"]}
{"id": "C15", "title": "Vertex equality and the Hash contract", "statement": "Vertices that compare equal with == should hash equally and == should be transitive, as HashSet requires; otherwise a HashSet can hold two equal vertices.", "quantifier": "all vertices", "why_tests_cant": "a contract over all pairs/triples of values", "anchors": ["src/elements/vertex.rs: PartialEq, Hash for Vertex"]}
{"id": "C16", "title": "Vertex::sort sorts", "statement": "Vertex::sort orders vertices by x and then by y. (False in general: with different x the comparison takes the y of the second vertex. What holds: the result is a permutation of the list; over the reals it always returns; and vertices with one and the same x come out ordered by y.)", "quantifier": "all lists of vertices", "why_tests_cant": "any list; a list of one column passes every test of order", "anchors": ["src/elements/vertex.rs: Vertex::sort"]}
{"id": "C17", "title": "Vertex ordering is a total order", "statement": "Ord::cmp on vertices is reflexive, antisymmetric and transitive and agrees with the lexicographic order of the coordinates; two vertices compare equal exactly when their coordinates agree (ghost vertices sit at the origin).", "quantifier": "all vertices with real coordinates that the constructors can make (a ghost vertex is at the origin)", "why_tests_cant": "order laws range over all triples", "anchors": ["src/elements/vertex.rs: Ord for Vertex"]}
{"id": "C18", "title": "Splitting segments at intersections", "statement": "When the segment splitter used by the polyline operations and by insert_segments returns, no two of the returned segments cross at a point that is not a common end, and if no two input segments cross the output is exactly the input, each segment once.", "quantifier": "all lists of segments of any length", "why_tests_cant": "any number of segments and crossings; worklist algorithm", "anchors": ["src/elements/polyline.rs: split_intersections", "src/planar/triangulator.rs: insert_segments"]}
{"id": "C19", "title": "Polyline::continence never panics", "statement": "For polylines built with new_closed/new_opened, continence either answers or keeps looping; it never panics, and it answers None for an opened first polyline.", "quantifier": "all pairs of polylines, any arithmetic including NaN", "why_tests_cant": "all inputs including NaN coordinates", "anchors": ["src/elements/polyline.rs: Polyline::continence, new_closed, new_opened"]}
{"id": "C20", "title": "Polyline::union result", "statement": "Whatever the hash order, a successful union returns a closed counterclockwise polyline with at least three vertices whose sides are all pieces of the split input sides lying outside at least one of the operands; opened operands or disjoint bounding boxes give None; every piece is either used or reported as unused.", "quantifier": "all pairs of polylines, all hash orders", "why_tests_cant": "hash iteration order is random, any polylines", "anchors": ["src/elements/polyline.rs: Polyline::union"]}
{"id": "C21", "title": "Polyline::continence does not depend on the direction of a polyline", "statement": "Reversing the direction or rotating the vertex list of either operand does not change the answer of continence.", "quantifier": "all pairs of polylines", "why_tests_cant": "ranges over all polylines", "anchors": ["src/elements/polyline.rs: Polyline::continence"]}
{"id": "C22", "title": "Polyline::intersection_vertices", "statement": "Every returned vertex lies on a side of each polyline (within tolerance), and every pair of sides that share a point contributes a vertex.", "quantifier": "all pairs of polylines", "why_tests_cant": "any number of sides", "anchors": ["src/elements/polyline.rs: Polyline::intersection_vertices"]}
{"id": "C23", "title": "Edge::arrange terminates and loses nothing", "statement": "For every set of edges and every hash order Edge::arrange terminates without panicking; every input edge is merged into exactly one returned edge and every returned edge is a chain of input edges.", "quantifier": "all sets of edges, all hash orders, any arithmetic", "why_tests_cant": "random hash order and any edge set", "anchors": ["src/elements/edge.rs: Edge::arrange, Edge::into_hashmap"]}
{"id": "C24", "title": "Edge::decompose returns a chain", "statement": "When decompose returns Some(list), the list is a chain of base edges from the first to the last vertex of the edge, each base edge parallel to it, same direction, and touching it.", "quantifier": "all base sets, all edges, all hash orders", "why_tests_cant": "any base set", "anchors": ["src/elements/edge.rs: Edge::decompose"]}
{"id": "C25", "title": "Edge::contains", "statement": "Edge::contains(v) holds exactly when v is inside the bounding box of the edge and within the collinearity band of its line; its endpoints are always contained; it is symmetric under reversal of the edge.", "quantifier": "all edges and points", "why_tests_cant": "continuum", "anchors": ["src/elements/edge.rs: Edge::contains"]}
{"id": "C26", "title": "Adjacency is sound after any history", "statement": "After any sequence of include_triangle/remove_triangle calls, each adjacency entry maps an edge to a triangle that is present and has this edge.", "quantifier": "all histories of any length", "why_tests_cant": "histories of unbounded length", "anchors": ["src/planar/triangulation.rs: Triangulation::include_triangle, remove_triangle, adjacency"]}
{"id": "C27", "title": "Triangulation::vertices and edges are exact", "statement": "vertices() is exactly the set of non-ghost corners of the present triangles, edges() exactly the set of their oriented sides, each listed once; include and remove are inverse of each other on the set of triangles and report whether they changed it.", "quantifier": "all triangulations", "why_tests_cant": "any size", "anchors": ["src/planar/triangulation.rs: vertices, edges, include_triangle, remove_triangle"]}
{"id": "C28", "title": "Adjacency is complete", "statement": "Every oriented side of every present triangle is found in the adjacency map and maps to that triangle: always, for arbitrary histories; and at least for histories that never hold two triangles sharing an oriented side.", "quantifier": "all histories of any length", "why_tests_cant": "histories of unbounded length", "anchors": ["src/planar/triangulation.rs: include_triangle, remove_triangle, adjacency"]}
{"id": "C29", "title": "Constraints are never crossed by vertex insertion", "statement": "vertices::include never removes a side that is in the constraint set: a constrained side of the triangulation is still a side of some triangle afterwards; every removed triangle either has a requested vertex strictly inside its circumcircle or conflicts with it across an unconstrained side of another such triangle.", "quantifier": "all triangulations, vertex lists, constraint sets, boundaries, holes and hash orders", "why_tests_cant": "random cavity shapes and orders", "anchors": ["src/planar/triangulation_procedures/vertices.rs: include, solve_conflicts"]}
{"id": "C30", "title": "No vertex is invented", "statement": "Every corner of the triangulation after vertices::include was a corner before or is one of the vertices asked for (or the ghost vertex).", "quantifier": "all triangulations, lists, hash orders, any arithmetic", "why_tests_cant": "any run", "anchors": ["src/planar/triangulation_procedures/vertices.rs: include"]}
{"id": "C31", "title": "Re-inserting present vertices changes nothing", "statement": "vertices::include with vertices that are all present already returns the same triangulation and reports no included and no removed triangle.", "quantifier": "all triangulations, lists, constraint sets, hash orders", "why_tests_cant": "all states", "anchors": ["src/planar/triangulation_procedures/vertices.rs: include"]}
{"id": "C32", "title": "Conflict accounting", "statement": "Distributing vertices over triangles neither loses nor duplicates a vertex: each pending vertex ends in exactly one conflict list or stays pending, and only in the list of a triangle whose circumcircle contains it.", "quantifier": "all triangles, lists, boundaries, holes", "why_tests_cant": "any list length", "anchors": ["src/planar/triangulation_procedures/vertices.rs: distribute_conflicts, distribute_conflicts_over_triangulation"]}
{"id": "C33", "title": "Vertex insertion preserves the Delaunay property", "statement": "Starting from a Delaunay triangulation of a finite set of points (adjacency exact, counterclockwise triangles with empty circumcircles, outer faces on hull edges, every point used) and inserting a list of points without constraints, boundary or holes, the result is a Delaunay triangulation of the old points together with the inserted ones. The first segment is such a triangulation. On exact reals with the tolerances of the code, for points that no tolerance confuses; integer points are never confused.", "quantifier": "all Delaunay triangulations of any finite point set, all vertex lists of any size, all hash orders", "why_tests_cant": "the central correctness claim: any number of points and any order", "anchors": ["src/planar/triangulation_procedures/vertices.rs: include, solve_conflicts"]}
{"id": "C34", "title": "The mesh stays a closed surface under vertex insertion", "statement": "After an unconstrained insertion into a Delaunay triangulation, every oriented side of the mesh (outer faces included) belongs to exactly one triangle and its reverse belongs to exactly one triangle.", "quantifier": "all Delaunay triangulations of any finite point set, all vertex lists, all hash orders", "why_tests_cant": "unbounded histories of cavity surgery", "anchors": ["src/planar/triangulation_procedures/vertices.rs: include, solve_conflicts"]}
{"id": "C35", "title": "Vertex insertion terminates without panic", "statement": "Unconstrained insertion of any list of points into a Delaunay triangulation returns: it neither panics on a missing neighbour nor loops.", "quantifier": "all Delaunay triangulations of any finite point set, all vertex lists, all hash orders", "why_tests_cant": "termination for all inputs", "anchors": ["src/planar/triangulation_procedures/vertices.rs: include, solve_conflicts"]}
{"id": "C36", "title": "Boundary inclusion", "statement": "boundary::include terminates after the vertex insertion step, leaves a ghost triangle on the outer side of every boundary side, and removes every triangle reachable from outside without crossing the boundary.", "quantifier": "all triangulations and closed polylines, all hash orders", "why_tests_cant": "any size and order", "anchors": ["src/planar/triangulation_procedures/boundary.rs: include"]}
{"id": "C37", "title": "Hole inclusion", "statement": "hole::include, when it returns, has every hole side in the mesh, leaves a ghost triangle on the inner side of every hole side, and removes exactly the triangles reachable from those sides without crossing the hole; its final flood fill always terminates.", "quantifier": "all triangulations and closed polylines, all hash orders", "why_tests_cant": "any size and order", "anchors": ["src/planar/triangulation_procedures/hole.rs: include"]}
{"id": "C38", "title": "insert_vertices is all or nothing", "statement": "Triangulator::insert_vertices returns Err with exactly the vertices that are not strictly inside the boundary or not strictly outside every hole, and then the triangulator is unchanged; otherwise it returns Ok and boundary, holes and triangulation are unchanged.", "quantifier": "all triangulators and vertex sets", "why_tests_cant": "any set, any state", "anchors": ["src/planar/triangulator.rs: insert_vertices"]}
{"id": "C39", "title": "insert_segments is all or nothing", "statement": "Triangulator::insert_segments returns Err with exactly the segments whose continence is not strictly inside the boundary or not strictly outside every hole, and then the triangulator is unchanged; otherwise boundary, holes and triangulation are unchanged.", "quantifier": "all triangulators and segment sets", "why_tests_cant": "any set, any state", "anchors": ["src/planar/triangulator.rs: insert_segments"]}
{"id": "C40", "title": "insert_hole is all or nothing", "statement": "Triangulator::insert_hole either returns Err with a non-empty set of vertices of the conflicting polylines or segments and changes nothing, or adds exactly that hole.", "quantifier": "all triangulators and polylines", "why_tests_cant": "any state", "anchors": ["src/planar/triangulator.rs: insert_hole"]}
{"id": "C41", "title": "Inserted vertices are kept", "statement": "After a successful insert_vertices each vertex of the set is a free vertex, an end of a segment, or was already an end (up to ==) of a segment; no segment end and no free vertex is lost.", "quantifier": "all triangulators, sets, hash orders", "why_tests_cant": "random order of both loops", "anchors": ["src/planar/triangulator.rs: insert_vertices"]}
{"id": "C42", "title": "insert_segments never creates zero-length segments", "statement": "After a successful insert_segments no segment of the triangulator has equal ends, provided none had before.", "quantifier": "all triangulators, sets, hash orders", "why_tests_cant": "quantifies over all states", "anchors": ["src/planar/triangulator.rs: insert_segments"]}
{"id": "C43", "title": "triangulate and refine touch only the triangulation", "statement": "triangulate and refine leave boundary, holes, free vertices and segments unchanged; triangulate does not depend on the previous triangulation.", "quantifier": "all triangulators, parameters, hash orders", "why_tests_cant": "all states", "anchors": ["src/planar/triangulator.rs: triangulate, refine"]}
{"id": "C44", "title": "insert_hole keeps free vertices out of holes", "statement": "As documented, insert_hole rejects a hole containing an already inserted free vertex, so that the free vertices are always outside every hole.", "quantifier": "all triangulators and holes", "why_tests_cant": "order of calls", "anchors": ["src/planar/triangulator.rs: insert_hole"]}
{"id": "C45", "title": "insert_segments accepts a segment independently of its direction", "statement": "A segment and its reverse are both accepted or both rejected.", "quantifier": "all triangulators and segments", "why_tests_cant": "all states", "anchors": ["src/planar/triangulator.rs: insert_segments", "src/elements/polyline.rs: Polyline::continence"]}
{"id": "C46", "title": "Every hole blocks triangle insertion", "statement": "A triangle candidate is refused as soon as the line to the new vertex is inside any of the holes, whatever the iteration order of the holes.", "quantifier": "all hole sets, triangles, vertices and hash orders", "why_tests_cant": "random hash order", "anchors": ["src/planar/triangulation_procedures/vertices.rs: may_insert_triangle"]}
{"id": "C47", "title": "Unencroaching a segment tiles it", "statement": "unencroach_segment returns sub-segments that form a partition of the original segment into consecutive halves: endpoints are kept, no gap, no overlap, every length is the original divided by a power of two.", "quantifier": "all triangulations, segments, vertex sets, hash orders", "why_tests_cant": "arbitrarily many halvings", "anchors": ["src/planar/refine_procedures/encroachment.rs: unencroach_segment, split_segment"]}
{"id": "C48", "title": "Encroachment distribution", "statement": "distribute_encroachments maps each segment to exactly the given vertices strictly inside its diametral disc and has no entry for the others.", "quantifier": "all segment sets and vertex sets", "why_tests_cant": "any size", "anchors": ["src/planar/refine_procedures/encroachment.rs: distribute_encroachments"]}
{"id": "C49", "title": "A rejected circumcenter leaves no trace", "statement": "When inserting a circumcenter fails because it encroaches constraints, the set of triangles is exactly what it was before, and the error lists only constrained sides encroached by the circumcenter.", "quantifier": "all triangulations, triangles, constraint sets, hash orders", "why_tests_cant": "any cavity", "anchors": ["src/planar/refine_procedures/triangle_split.rs: try_circumcenter_insertion"]}
{"id": "C50", "title": "Refinement reaches its targets", "statement": "When refine returns, every non-ghost triangle has quality below the requested ratio and area below the requested maximum.", "quantifier": "all triangulators and parameters", "why_tests_cant": "any input", "anchors": ["src/planar/refine_procedures/triangle_split.rs: split_irregular", "src/planar/triangulator.rs: refine"]}
{"id": "C51", "title": "Unencroach reports what it changed", "statement": "The included set returned by unencroach is the set of triangles that it added and that are still present.", "quantifier": "all triangulations and constraint sets", "why_tests_cant": "any input", "anchors": ["src/planar/refine_procedures/encroachment.rs: unencroach"]}
{"id": "C52", "title": "Output file is consistent", "statement": "The output lists each vertex of the triangulation exactly once, every index is in range, there is one triple per solid triangle, and index i of a triple refers to the i-th listed coordinate.", "quantifier": "all triangulations and hash orders", "why_tests_cant": "two hash maps with independent random orders", "anchors": ["src/json_serializar/models/output.rs: Output"]}
{"id": "C53", "title": "Wireframe edges", "statement": "The list of edges handed to the viewer contains each undirected side of the solid triangles exactly once, and the triangle list three positions per solid triangle.", "quantifier": "all triangulations and hash orders", "why_tests_cant": "any size and order", "anchors": ["src/glium_interface/vertex.rs: triangles_from_triangulation, edges_from_triangulation"]}
{"id": "C54", "title": "Input interpretation", "statement": "An input is accepted exactly when each action has a known geometry with an admissible intent and a parsable body; the collected includes/removes keep the order of the actions and segments/vertices are the union of all constraint actions.", "quantifier": "all inputs of any length", "why_tests_cant": "any list of actions", "anchors": ["src/triangulator_interface/interpreter/mod.rs: interpret"]}
{"id": "C55", "title": "Parsers do not panic", "statement": "A malformed action (index out of range, fewer than three points, resolution below three) is answered with Err, not with a panic.", "quantifier": "all actions", "why_tests_cant": "all inputs", "anchors": ["src/triangulator_interface/interpreter/segments_parser.rs", "src/triangulator_interface/interpreter/polyline_parser.rs", "src/triangulator_interface/interpreter/circle_parser.rs"]}
{"id": "C56", "title": "Overlapping removals are merged", "statement": "Two overlapping remove polylines inside the boundary yield a single hole, their union, and parsing succeeds.", "quantifier": "all inputs with overlapping removals", "why_tests_cant": "all configurations", "anchors": ["src/triangulator_interface/domain_evaluator.rs: holes"]}
{"id": "C57", "title": "Circles", "statement": "A circle action yields exactly the requested number of points (the second scalar rounded, 100 by default), all at distance radius from the centre, with sides of equal length.", "quantifier": "all radii, centres and resolutions of at least three", "why_tests_cant": "any resolution", "anchors": ["src/triangulator_interface/interpreter/circle_parser.rs"]}
{"id": "C58", "title": "The domain needs an include", "statement": "Without include polyline the domain is an error; with includes, every include is united into the boundary or the domain is an error; a removal that does not cut the boundary is passed on as a potential hole.", "quantifier": "all inputs, all hash orders", "why_tests_cant": "hash order decides the order of unions", "anchors": ["src/triangulator_interface/domain_evaluator.rs: boundary"]}
{"id": "C59", "title": "Vertex absorption terminates", "statement": "The loop of insert_segments that cuts new segments at free vertices always terminates, and afterwards no free vertex lies on a segment it produced, the segments being chained pieces of the inserted ones.", "quantifier": "all vertex sets, segment sets, hash orders, any arithmetic", "why_tests_cant": "random order; termination for all inputs", "anchors": ["src/planar/triangulator.rs: insert_segments"]}
{"id": "C60", "title": "Triangle and edge accessors", "statement": "inner_edges/outer_edges are mutually opposite, opposite_vertex and opposite_edge are inverse on triangles with distinct corners, Edge::from_vertices gives one edge per vertex, each vertex being once a head and once a tail, closing the loop. The length of an edge is the distance between its ends, and two triangles compare equal exactly when their corners are equal after renaming one of them from another of its corners.", "quantifier": "all triangles, all vertex lists", "why_tests_cant": "any list length", "anchors": ["src/elements/triangle.rs: inner_edges, outer_edges, opposite_vertex, opposite_edge", "src/elements/edge.rs: from_vertices, opposite, length", "src/elements/triangle.rs: PartialEq"]}
{"id": "C61", "title": "Batch insertion does not depend on hash order", "statement": "Inserting the same list of points in one call into the same triangulation always gives the same set of triangles whatever the hash seeds, when the points are in general position. (Refuted: the set of vertices kept depends on the seeds.)", "quantifier": "all point sets in general position, all pairs of hash orders", "why_tests_cant": "hash seeds are random per process", "anchors": ["src/planar/triangulation_procedures/vertices.rs: include"]}
{"id": "C62", "title": "More steps never change an answer", "statement": "A run that ended with a result ends with the same result under every larger step budget, so results do not depend on the budget used in the model.", "quantifier": "all functions with unbounded loops, all inputs", "why_tests_cant": "model adequacy for all inputs", "anchors": ["src/planar/triangulation_procedures/vertices.rs: include", "src/elements/polyline.rs: split_intersections"]}
{"id": "C63", "title": "No requested vertex is dropped", "statement": "After vertices::include returns, every vertex that was asked for is a vertex of the triangulation, at least for points in general position inserted without boundary, holes or constraints.", "quantifier": "all triangulations started from a segment, all lists of vertices in general position, all hash orders", "why_tests_cant": "whether a vertex is dropped depends on the random hash seed of the run", "anchors": ["src/planar/triangulation_procedures/vertices.rs: include, solve_conflicts, distribute_conflicts"]}
{"id": "C64", "title": "No returned sub-segment is encroached", "statement": "After unencroach_segment returns, none of the returned sub-segments has one of the given vertices strictly inside its diametral disc.", "quantifier": "all triangulations produced by triangulate, all constrained segments, all sets of encroaching vertices", "why_tests_cant": "needs several vertices encroaching different parts of the segment at different depths", "anchors": ["src/planar/refine_procedures/encroachment.rs: unencroach_segment"]}
{"id": "C65", "title": "Inserted segments are kept", "statement": "After a successful insert_segments, the ends of every old segment and of every new segment are still joined by a path of segments (up to == at cut points), and no free vertex is invented.", "quantifier": "all triangulators, all sets of segments, all hash orders", "why_tests_cant": "chains of splits have unbounded length and depend on the hash order", "anchors": ["src/planar/triangulator.rs: insert_segments"]}
{"id": "C66", "title": "The reported changes are the changes", "statement": "vertices::include returns the included and the removed triangles: every triangle of the result was there before or is reported included, every triangle that was there before or is reported included is in the result or is reported removed, and nothing else is reported removed.", "quantifier": "all triangulations, vertex lists, constraint sets, boundaries, holes, hash orders, any arithmetic", "why_tests_cant": "unbounded histories of cavity surgery", "anchors": ["src/planar/triangulation_procedures/vertices.rs: include, solve_conflicts"]}
{"id": "C67", "title": "A vertex inserted alone is never dropped", "statement": "Inserting one vertex without constraints into a Delaunay triangulation, when the old points and the new one are not all on one line, makes it a vertex of the mesh. So inserting integer points one call at a time, starting from a segment and a point off its line, always ends with the Delaunay triangulation of all of them.", "quantifier": "all Delaunay triangulations of any finite point set, all new points, all hash orders; all lists of integer points of any length", "why_tests_cant": "point location has to succeed for every position of the new point relative to every mesh, cocircular and collinear cases included", "anchors": ["src/planar/triangulation_procedures/vertices.rs: include, solve_conflicts, distribute_conflicts", "src/elements/triangle.rs: encircles"]}
{"id": "C68", "title": "One-at-a-time insertion does not depend on order nor on hash seeds", "statement": "When no four points are on one circle, inserting the same points one call at a time, in any two orders and with any hash seeds, gives the same triangles (outer faces included) up to the corner each one starts with.", "quantifier": "all Delaunay triangulations, all point lists of any length and all permutations of them, all pairs of hash orders", "why_tests_cant": "hash seeds are random per process and the number of orders is factorial", "anchors": ["src/planar/triangulation_procedures/vertices.rs: include, solve_conflicts"]}
{"id": "C69", "title": "The mesh tiles the convex hull", "statement": "After an unconstrained insertion into a Delaunay triangulation that is more than a segment, a point of the plane is in some triangle exactly when it is in the convex hull of the vertices of the mesh, and no point is strictly inside two triangles.", "quantifier": "all Delaunay triangulations, all vertex lists, all points of the plane, all hash orders", "why_tests_cant": "coverage and overlap range over all points of the plane", "anchors": ["src/planar/triangulation_procedures/vertices.rs: include, solve_conflicts"]}
{"id": "C70", "title": "The outline of a set of triangles", "statement": "The edges handed to triangles_hull's arrangement are exactly the directed sides of the triangles whose reversed edge is not a side of any of them.", "quantifier": "all sets of triangles of any size, all hash orders, any arithmetic", "why_tests_cant": "the pairing consumes an unordered set of unbounded size", "anchors": ["src/elements/polyline.rs: triangles_hull"]}
{"id": "C71", "title": "Corners that survive minified_noncolinear", "statement": "A closed polyline keeps exactly the vertices at which orientation is not Colinear with respect to both neighbours, cyclically and in order, and the call panics exactly when fewer than three are left. An opened polyline keeps its two ends and the turning vertices between them, and comes back closed.", "quantifier": "all polylines of any length, any arithmetic", "why_tests_cant": "positions and lengths are unbounded", "anchors": ["src/elements/polyline.rs: minified_noncolinear"]}
{"id": "C72", "title": "Refinement works through every bad triangle", "statement": "When refine returns, the mesh was obtained by a sequence of trials of circumcentres of triangles that missed a target, each accepted or undone with its encroached segments split, and every solid triangle left that misses the quality or the area target either had its own centre tried or was reported removed by some step.", "quantifier": "all triangulators with a sound mesh, all parameters, all hash orders, any arithmetic", "why_tests_cant": "runs have unbounded length and depend on the hash order", "anchors": ["src/planar/triangulator.rs: refine", "src/planar/refine_procedures/triangle_split.rs: split_irregular"]}
{"id": "C73", "title": "Enforced edges survive the insertion of the free vertices", "statement": "In triangulate, every boundary side, hole side or segment that is a side of the mesh before the free vertices are inserted is a side of the final mesh, when distinct given vertices are not ==.", "quantifier": "all triangulators, all hash orders, any arithmetic", "why_tests_cant": "unbounded sequences of cavity surgery", "anchors": ["src/planar/triangulator.rs: triangulate"]}
{"id": "C74", "title": "Triangulation invents no vertex", "statement": "Every corner of a triangle of the triangulated mesh is a vertex of the boundary, of a hole, an end of a segment, a free vertex, or the ghost vertex; and the adjacency of the result is sound.", "quantifier": "all triangulators, all hash orders, any arithmetic", "why_tests_cant": "unbounded sequences of cavity surgery", "anchors": ["src/planar/triangulator.rs: triangulate"]}
{"id": "C75", "title": "Results of intersection and subtraction", "statement": "The polylines returned are closed trails of at least three different segments, no segment used twice, each one a piece of the split sides (or what is left of two that run against each other), whose midpoint is not outside either operand (intersection), or not outside the first nor inside the second (subtraction). Every piece of the split sides is in a polyline or in the unused set. Opened or far operands give no polyline.", "quantifier": "all pairs of polylines, all hash orders, any arithmetic", "why_tests_cant": "number of sides, crossings and chains is unbounded", "anchors": ["src/elements/polyline.rs: intersection, subtraction"]}
{"id": "C76", "title": "One polygon inside another", "statement": "If the sides do not cross nor run against each other, the inner polygon's side midpoints are in both and the outer's are outside the inner one, then intersection returns exactly the inner polygon and union exactly the outer counterclockwise one, each up to the starting corner, for both argument orders, and reports the other's sides as unused.", "quantifier": "all pairs of nested polygons with any number of sides, all hash orders, any arithmetic", "why_tests_cant": "all polygons, all orders of the hash set", "anchors": ["src/elements/polyline.rs: intersection, union"]}
{"id": "C77", "title": "A polygon whose sides are all there is filled exactly", "statement": "If a counterclockwise polygon with no repeated corner is triangulated with nothing else in it and every side of the polygon is a side of some resulting triangle, then the resulting triangles are a Delaunay tiling of the polygon: counterclockwise, with empty circumcircles, covering exactly the points with winding number one, without overlap, every triangle side is shared or a side of the polygon, outer faces lie exactly behind the sides, the areas add up to the polygon's, and the polygon winds at most once. Hence a point reported Inside by contains is covered by a triangle and one reported Outside is strictly inside none.", "quantifier": "all such polygons of the real plane with any number of corners that the tolerances tell apart, convex or not, all hash orders", "why_tests_cant": "flood fill and insertion over unbounded inputs; statement about all points of the plane", "anchors": ["src/planar/triangulator.rs: triangulate", "src/planar/triangulation_procedures/boundary.rs: include", "src/elements/polyline.rs: contains"]}
{"id": "C78", "title": "A polygon with free sides is filled once its corners are used", "statement": "If each side of the polygon has a circle through its ends with the other corners outside (always so for strictly convex polygons) and every corner is a corner of some resulting triangle, then the result fills the polygon in the sense of C77: the missing sides need not be enforced.", "quantifier": "as C77", "why_tests_cant": "as C77", "anchors": ["src/planar/triangulator.rs: triangulate", "src/planar/triangulation_procedures/vertices.rs: include"]}
{"id": "C79", "title": "Quadrilaterals are always filled", "statement": "Triangulating a quadrilateral whose first side has both other corners on its left and whose sides have free circles returns, and fills the quadrilateral in the sense of C77; in particular any strictly convex quadrilateral. No vertex is lost.", "quantifier": "all such quadrilaterals of the real plane that the tolerances tell apart, all hash orders", "why_tests_cant": "continuum of inputs and all orders of the hash sets", "anchors": ["src/planar/triangulator.rs: triangulate", "src/planar/triangulation_procedures/vertices.rs: include"]}
{"id": "C80", "title": "Triangulating a polygon returns", "statement": "Triangulating a polygon with nothing else in it always stops and never panics, and returns the same result however much time it is given.", "quantifier": "all polygons of the real plane, simple or not, that the tolerances tell apart, with different first two corners; all hash orders", "why_tests_cant": "absence of divergence and of panics over unbounded inputs", "anchors": ["src/planar/triangulator.rs: triangulate"]}
{"id": "C81", "title": "Containment does not change along a way that meets no side", "statement": "If the straight way between two points meets no side of a closed polygon, both have the same winding number.", "quantifier": "all closed polygons of the real plane, simple or not, and all pairs of points", "why_tests_cant": "continuum of points", "anchors": ["src/elements/polyline.rs: contains"]}
{"id": "C82", "title": "Triangles of a triangulated domain are counterclockwise and do not overlap", "statement": "After accepted insertions of segments and free vertices, every solid triangle left by triangulate is counterclockwise and no two of them have a common inner point. (False of the code: a free vertex beside an inserted segment is inserted from a triangle behind the segment for some hash orders.)", "quantifier": "all accepted inputs and all hash orders", "why_tests_cant": "depends on the per-process hash seed", "anchors": ["src/planar/triangulation_procedures/vertices.rs: include, distribute_conflicts", "src/planar/triangulator.rs: triangulate"]}
{"id": "C83", "title": "Inserting a vertex between constrained edges keeps the mesh constrained Delaunay", "statement": "Take a mesh that tiles a region without overlap, has the constrained edges among its sides and is locally Delaunay across all others. Inserting a vertex of the region that lies on no constrained edge returns, and leaves such a mesh of the same region with the vertex in it, provided every triangle whose circle strictly contains the vertex has a point that sees it past the constrained edges. The triangles removed are exactly those whose circle strictly contains it; every new triangle has it as a corner; the outer faces stay. A polygon filled by triangulate is such a mesh, and in a convex one every inner vertex is seen.", "quantifier": "all meshes, constrained edges and vertices of the real plane that the tolerances tell apart, all hash orders", "why_tests_cant": "continuum of positions, unbounded meshes and every order of the hash sets", "anchors": ["src/planar/triangulation_procedures/vertices.rs: include, solve_conflicts", "src/planar/triangulator.rs: triangulate"]}
{"id": "C84", "title": "Triangulating a convex polygon with free vertices gives a constrained Delaunay mesh of the polygon", "statement": "Triangulating a convex polygon with free vertices inside returns, and the result is a constrained Delaunay mesh of exactly the polygon: counterclockwise triangles without overlap that cover it, the sides of the polygon among their sides, locally Delaunay inside. At least one of the free vertices is inserted, and the others are either inserted or dropped. With one free vertex nothing is dropped.", "quantifier": "all strictly convex polygons and free vertices of the real plane that the tolerances tell apart and whose points are not within the tolerance of a side they are not on; all hash orders", "why_tests_cant": "continuum of inputs, every order of the hash sets, unbounded numbers of vertices", "anchors": ["src/planar/triangulator.rs: triangulate", "src/planar/triangulation_procedures/vertices.rs: include, distribute_conflicts", "src/elements/polyline.rs: continence, split_intersections"]}
{"id": "C85", "title": "A vertex that sees a triangle is not inside its circle", "statement": "In a constrained Delaunay mesh, a vertex of the mesh from which some point of a triangle can be seen, no constrained edge being met before the vertex itself, is not strictly inside the circle of that triangle. The mesh is Delaunay as a whole and not only across each edge. In a convex polygon, where everything is visible, the circles are empty of all vertices.", "quantifier": "all constrained Delaunay meshes of the real plane whose vertices the tolerances tell apart, all triangles of the mesh, all its vertices that are not in the middle of a constrained edge", "why_tests_cant": "continuum of inputs, meshes of any size", "anchors": ["src/planar/triangulation_procedures/vertices.rs: include, solve_conflicts", "src/elements/triangle.rs: encircles"]}
{"id": "C86", "title": "Triangulating with inner segments that do not touch makes each of them an edge of the mesh, whatever the hash order, and does not panic", "statement": "When segments that do not meet each other were accepted inside a boundary, triangulating returns a mesh that has each of them as an edge and covers the inside of the boundary, in every iteration order of the hash sets.", "quantifier": "all boundaries, accepted disjoint segments and hash orders", "why_tests_cant": "the order of the hash sets differs from run to run, and the same input works in one order, loses a segment and most of the mesh in another, and panics on a slightly different input", "anchors": ["src/planar/triangulator.rs: triangulate, insert_segments", "src/planar/triangulation_procedures/segment.rs: include"]}
{"id": "C87", "title": "Refining keeps every inner segment as a chain of edges of the mesh and does not panic", "statement": "If the triangulated mesh has counterclockwise triangles and all the segments as edges, then after refining it each piece of a segment in the final set of constraints is an edge of the mesh, and refining does not panic.", "quantifier": "all triangulated domains with inner segments, all refinement parameters, all hash orders", "why_tests_cant": "needs two segments, a vertex close to one of them and a certain order of the hash map; the pieces of one segment are not yet constraints when the next one is split", "anchors": ["src/planar/triangulator.rs: refine", "src/planar/refine_procedures/encroachment.rs: unencroach, unencroach_segment, split_segment"]}
{"id": "C88", "title": "A boundary side of a convex polygon stays a chain of edges when it is split in the middle", "statement": "In a Delaunay mesh of a convex polygon every part of a side, from one vertex to the next one, is an edge of a triangle of the mesh. Splitting such a part puts its middle in the mesh, does not panic, gives a Delaunay mesh of the polygon with one vertex more whose side parts are the old ones with the two halves in the place of the one that was split, and reports exactly the triangles that came and went.", "quantifier": "all convex polygons of the real plane with corners off the other sides by more than the tolerance, all Delaunay meshes of vertices in them, all hash orders; the middle is told apart from the vertices by the tolerances", "why_tests_cant": "continuum of polygons and vertex positions, meshes of any size, all hash orders", "anchors": ["src/planar/refine_procedures/encroachment.rs: split_segment", "src/planar/triangulation_procedures/vertices.rs: include"]}
{"id": "C89", "title": "A circumcentre is either inserted or rejected with exactly the sides it encroaches", "statement": "Trying the circumcentre of a triangle of a Delaunay mesh of a convex polygon never panics. If it is accepted the mesh is the Delaunay mesh with the centre, the triangle is gone, the reported triangles are exactly those that came and went, and no free side part has the centre inside its diameter circle. If it is rejected the triangles are unchanged, and the reported parts are not empty, are parts of sides whose diameter circle has the centre inside, and include every such part that was free before.", "quantifier": "all convex polygons of the real plane, Delaunay meshes in them, triangles and hash orders; the centre is well inside the polygon and told apart from the vertices", "why_tests_cant": "continuum of inputs, meshes of any size; what is rejected depends on which constrained edges are in the cavity", "anchors": ["src/planar/refine_procedures/triangle_split.rs: try_circumcenter", "src/planar/refine_procedures/encroachment.rs: vertices_encroaching, conflicts"]}
{"id": "C90", "title": "Removing encroachments keeps the constraints equal to the parts of the boundary sides", "statement": "Removing the encroachments of a Delaunay mesh of a convex polygon never panics, and afterwards the mesh is a Delaunay mesh of the polygon with the old vertices and the middles, and the constraints updated by the returned split map are exactly the parts of the sides between consecutive vertices, each once.", "quantifier": "all convex polygons of the real plane, Delaunay meshes in them, hash orders and numbers of splits, as long as each middle that is tried is told apart from the vertices", "why_tests_cant": "any number of nested splits in any hash order", "anchors": ["src/planar/refine_procedures/encroachment.rs: unencroach, unencroach_segment", "src/planar/triangulator.rs: refine"]}
{"id": "C91", "title": "Refining a convex polygon gives a Delaunay mesh of it, and the bad triangles left were turned down", "statement": "Refining a Delaunay mesh of a convex polygon never panics. The result is a Delaunay mesh that covers exactly the polygon, keeps all the vertices, has every part of a side as an edge, and each triangle left that misses the quality or area target is one whose circumcentre was tried and was inside the diameter circle of a part of a side.", "quantifier": "all convex polygons of the real plane, starting meshes, refinement parameters, hash orders and lengths of the run, as long as each point that is tried is told apart from the vertices", "why_tests_cant": "unbounded runs, continuum of inputs and parameters, all hash orders", "anchors": ["src/planar/triangulator.rs: refine", "src/planar/refine_procedures/triangle_split.rs: split_irregular", "src/planar/refine_procedures/encroachment.rs: unencroach"]}
{"id": "C92", "title": "Triangulating and refining a convex polygon with free vertices, end to end", "statement": "Triangulating a convex polygon with free vertices inside terminates, and refining the result never panics and gives a Delaunay mesh that covers exactly the polygon (winding number one, or on a side), keeps the corners and the inserted vertices, has every part of a side as an edge, and leaves as bad only triangles whose circumcentre was turned down.", "quantifier": "all convex polygons and vertices of the real plane off the sides by more than the tolerance, all refinement parameters, hash orders and run lengths, as long as each point that is tried is told apart from the vertices", "why_tests_cant": "unbounded runs, continuum of inputs and parameters, all hash orders", "anchors": ["src/planar/triangulator.rs: triangulate, refine"]}
{"id": "C93", "title": "Refining a convex polygon terminates, with a number of vertices bounded by the polygon", "statement": "Refining a Delaunay mesh of a convex polygon runs to completion: from some number of steps on, the result no longer depends on the number of steps allowed. The number of vertices of the result is at most a bound that depends on the polygon only, not on the starting mesh, the quality and area targets or the hash order. Splitting one side at its middle and trying one circumcentre also run to completion. From the corners and free vertices, triangulating and then refining both terminate.", "quantifier": "all convex polygons of the real plane, starting meshes, refinement parameters and hash orders, as long as each point that is tried is told apart from the vertices", "why_tests_cant": "a test can only see that a given run ends; the loops have no syntactic bound and the targets may be unreachable", "anchors": ["src/planar/triangulator.rs: refine", "src/planar/refine_procedures/triangle_split.rs: split_irregular, try_circumcenter", "src/planar/refine_procedures/encroachment.rs: unencroach, unencroach_segment"]}
{"id": "C94", "title": "Inserting a segment replaces exactly the triangles that give way", "statement": "When the insertion of a segment into a mesh succeeds, the triangles taken out are exactly the solid ones that are in the way (an end of the segment is not outside their circle, or the segment is not wholly outside them) and that have no constrained side with an end of the segment strictly beyond its line. All the other triangles stay, the outer ones included. The triangles put in are solid and have only corners of the triangles taken out and the two ends of the segment. Enforcing a set of missing sides on a mesh ends with all of them as edges of the mesh; every triangle that disappears gave way to one of them, and those that appear are solid and have only corners of old triangles and ends of the sides.", "quantifier": "all arithmetics, hash orders, meshes, segments and sets of constrained edges for which the insertion succeeds", "why_tests_cant": "ranges over all meshes, constraints and hash orders, NaN included", "anchors": ["src/planar/triangulation_procedures/segment.rs: include", "src/planar/triangulation_procedures/hole.rs: include"]}
{"id": "C95", "title": "Arranging and decomposing edges keeps the points they cover", "statement": "The edges returned by arranging a set of edges cover exactly the points of the edges given. When an edge is decomposed over a set of edges, the pieces are edges of the set, run one after the other from its first end to its second, and cover exactly the points of the edge.", "quantifier": "all finite sets of edges of the real plane whose ends the tolerances do not confuse (integer coordinates, for instance), and all hash orders", "why_tests_cant": "continuum of points and edges, all sizes and hash orders", "anchors": ["src/elements/edge.rs: Edge::arrange, Edge::decompose", "src/properties/dot.rs: dot"]}
{"id": "C96", "title": "Two holes of a square leave no triangle inside them (false)", "statement": "After two disjoint holes have been accepted, triangulating leaves no triangle over the inside of a hole and no point inside two triangles. This is false: the corners of a hole are inserted without regard for the holes cut before, so for some hash orders the first hole is covered again and triangles overlap, while another hash order gives the right answer for the same input.", "quantifier": "there are a square, two holes and two hash orders (binary64)", "why_tests_cant": "the outcome depends on the iteration order of the hash containers, which changes at each run", "anchors": ["src/planar/triangulator.rs: triangulate, insert_hole", "src/planar/triangulation_procedures/hole.rs: include", "src/planar/triangulation_procedures/vertices.rs: include"]}
{"id": "C97", "title": "A hole of a polygon that is not convex stays empty (false)", "statement": "After a hole has been accepted in a polygon that is not convex, triangulating covers neither the inside of the hole nor the outside of the polygon. This is false: the corners of the hole are inserted without regard for the boundary, so for some hash orders triangles cover both, while another hash order gives the right answer for the same input.", "quantifier": "there are an L-shaped polygon, a hole and two hash orders (binary64)", "why_tests_cant": "the outcome depends on the iteration order of the hash containers, which changes at each run", "anchors": ["src/planar/triangulator.rs: triangulate, insert_hole", "src/planar/triangulation_procedures/hole.rs: include"]}
{"id": "C98", "title": "Cutting a hole out of a mesh of a convex polygon", "statement": "Cutting a hole out of a constrained Delaunay mesh of a convex polygon terminates without panic. The result covers exactly the points of the polygon that are not strictly inside the hole, has every side of the polygon and of the hole as an edge, has circles empty of all the vertices, and has outer faces exactly along the polygon and around the hole. This supposes that inserting the corners of the hole leaves none out; that is so when all of them, or all but one, are vertices already.", "quantifier": "all convex polygons of the real plane, meshes, hash orders, and holes of any shape well inside, counterclockwise, with sides that have a circle through their ends empty of the other vertices, and with no other vertex inside", "why_tests_cant": "continuum of polygons, holes of any number of sides, all hash orders", "anchors": ["src/planar/triangulation_procedures/hole.rs: include", "src/planar/triangulation_procedures/vertices.rs: include"]}
{"id": "C99", "title": "Triangulating a convex polygon with a hole, end to end", "statement": "Triangulating a convex polygon with one hole terminates without panic, and the mesh covers exactly the points of the polygon that are not strictly inside the hole, with the corners of both as its vertices, the sides of both as edges, empty circles, and outer faces exactly along the polygon and around the hole. This supposes that no corner of the hole is left out when they are inserted.", "quantifier": "all convex polygons of the real plane, holes as in C98, and hash orders", "why_tests_cant": "continuum of polygons and holes, all hash orders", "anchors": ["src/planar/triangulator.rs: triangulate", "src/planar/triangulation_procedures/hole.rs: include", "src/planar/triangulation_procedures/boundary.rs: include"]}
{"id": "C100", "title": "The intersection of two polygons surrounds exactly the common points", "statement": "Intersecting two closed polygons that cross terminates without panic, and returns closed polygons that together surround a point as often as the product of how often the two polygons do, so exactly the common points once. The sides have to be well apart for the tolerance, not to lie along each other, and to surround each point at most once, counterclockwise. For polygons with whole coordinates and level or upright sides the conditions are exact, and for two rectangles without a common coordinate nothing else is supposed.", "quantifier": "all pairs of polygons of the real plane, of any number of sides and any shape, whose sides meet clearly or not at all; all hash orders; every point off the sides", "why_tests_cant": "continuum of polygons and points, any number of crossings, all hash orders", "anchors": ["src/elements/polyline.rs: intersection, split_intersections"]}
{"id": "C101", "title": "The subtraction of two polygons surrounds exactly the difference", "statement": "Subtracting one closed polygon from another it crosses terminates without panic, and returns closed polygons that together surround exactly the points of the first that the second does not surround, once each. Beside the conditions of C100, the boxes meet and some corner of the second is not strictly inside the first (otherwise no polygon is returned).", "quantifier": "all pairs of polygons of the real plane as in C100, all hash orders, every point off the sides", "why_tests_cant": "continuum of polygons and points, any number of crossings, all hash orders", "anchors": ["src/elements/polyline.rs: subtraction, continence, split_intersections"]}
{"id": "C102", "title": "The union of two polygons is one of the rings of the union", "statement": "The boundary of the union of two polygons that cross falls into rings which together surround each point of either polygon once. Uniting them returns a counterclockwise ring of those, with the sides of all the other rings among the unused segments; it returns nothing only if all rings are clockwise, and panics only if a ring has area zero. When every unused segment has its middle inside one of the polygons, the polygon returned surrounds exactly the points of either.", "quantifier": "all pairs of polygons of the real plane as in C100, all hash orders, every point off the sides", "why_tests_cant": "continuum of polygons and points, any number of crossings, all hash orders", "anchors": ["src/elements/polyline.rs: union, split_intersections, segments_orientation"]}
{"id": "C103", "title": "The holes of a domain come from the removals inside its boundary", "statement": "The holes kept for a boundary are pairwise different, each lies strictly inside the boundary and is a removal, possibly united with others; no removal vanishes, since it grows by unions into something that is a hole or is not strictly inside; when no two removals can be united the holes are exactly the removals strictly inside the boundary.", "quantifier": "all boundaries, all lists of removals, every arithmetic, all hash orders", "why_tests_cant": "any number of removals joined in any order that hashing gives", "anchors": ["src/triangulator_interface/domain_evaluator.rs: holes", "src/elements/polyline.rs: union, continence"]}
{"id": "C104", "title": "Parsing yields what the actions ask for, or names what does not fit", "statement": "When parsing accepts an input, the triangulator it returns has the boundary that uniting the includes and carving out the removals gives, an empty mesh, the holes of C103, pairwise one outside the other, every constraint segment strictly inside the boundary and outside the holes, linked in the segment set, and every constraint vertex in place, and nothing more; the parameters are those of the input. When parsing refuses, some action is not understood, no boundary can be assembled, or two holes, a segment or a vertex do not fit.", "quantifier": "all inputs, every arithmetic, all hash orders, all fuel for which parsing returns", "why_tests_cant": "any list of actions with any coordinates", "anchors": ["src/triangulator_interface/mod.rs: parse", "src/triangulator_interface/domain_evaluator.rs", "src/planar/triangulator.rs: insert_hole, insert_segments, insert_vertices"]}
{"id": "C105", "title": "Points in convex position are all inserted, so a convex polygon is always filled", "statement": "Inserting a batch of points in convex position (no three on a line, none inside a triangle of three others) never drops a point: the insertion ends, and the result is the Delaunay triangulation of all of them. Hence triangulating a strictly convex polygon of any number of corners terminates and fills it exactly: every corner is used, the triangles cover the points that the polygon surrounds and no others, and every side is an edge.", "quantifier": "all finite sets of points of the real plane in convex position that the tolerances tell apart, all strictly convex polygons, all starting segments, all hash orders", "why_tests_cant": "a batch may drop points in general (C61), so that tests on some polygons say nothing about others; continuum of polygons, unbounded numbers of corners, every order of the hash sets", "anchors": ["src/planar/triangulator.rs: triangulate", "src/planar/triangulation_procedures/vertices.rs: include, solve_conflicts, distribute_conflicts", "src/planar/triangulation_procedures/boundary.rs: include"]}
{"id": "C106", "title": "The whole program on a convex polygon with vertices, from the input to the lists it writes", "statement": "An input whose actions include one convex polygon (as a polyline or as a circle, possibly repeatedly) and ask for vertices well inside it, in any order and grouping, is accepted, and what is triangulated has exactly that boundary and those vertices. The program then terminates without panic and writes lists such that: the coordinates are those of the vertices of a Delaunay mesh that covers exactly the polygon, once each; they contain all corners of the polygon and at least one of the vertices asked for; their number is at most a bound that depends on the polygon only; the index triples name the triangles of that mesh, once each, in an order of the vertices that is a permutation of the one of the coordinates; every part of a side is an edge; and triangles that miss the targets had their circumcentre turned down.", "quantifier": "all such inputs with points of the real plane told apart by the tolerances and off the sides, all targets, all hash orders, as long as each point that the refinement tries is told apart from the vertices", "why_tests_cant": "continuum of inputs, unbounded runs, all hash orders; a test sees one run of the pipeline", "anchors": ["src/main.rs: main", "src/triangulator_interface/mod.rs: parse", "src/planar/triangulator.rs: triangulate, refine", "src/json_serializar/models/output.rs"]}
{"id": "C107", "title": "On points of a grid, binary64 decides exactly: no rounding error and no tolerance", "statement": "When the coordinates are multiples of 2^k (any k from -23 to 400) by integers of at most 2^24 in size, for instance integers up to 16 million or multiples of 1/1024 up to 16384, the crate's own arithmetic (IEEE 754 doubles, rounding to nearest) gives the exact answers: three points are reported counterclockwise, clockwise or colinear according to the sign of their area, with nothing swallowed by the tolerance; a point encroaches a segment exactly when it is strictly inside its diametral circle; parallel segments, equal vertices and points on a segment are recognised exactly; midpoint, dot product and triangle area are the exact values; a polygon contains a point exactly according to the winding number, and reports boundary exactly on its sides; and a domain with holes accepts exactly the vertices strictly inside the boundary and strictly outside all holes.", "quantifier": "all grids, all points on them, all vertices of doubles that stand for them (both signs of zero), all polygons and holes, all hash orders", "why_tests_cant": "the number of representable inputs is astronomic; a rounding error may show on few of them only", "anchors": ["src/properties/orientation.rs", "src/properties/encroachment.rs", "src/properties/parallel.rs", "src/properties/midpoint.rs", "src/properties/dot.rs", "src/properties/area.rs: triangle", "src/elements/edge.rs: contains", "src/elements/polyline.rs: contains", "src/elements/vertex.rs: eq", "src/planar/triangulator.rs: insert_vertices"]}
{"id": "C108", "title": "Refuted: on integer points the in-circle test recognises four points on a circle", "statement": "The claim that binary64 reports four integer points of one circle as being on the boundary, or at least answers consistently, is false: for (-4,-3), (-3,-4), (4,-3), (4,3) on the circle of radius 5 the answer is strictly inside for the first three and the fourth, strictly outside when the same triangle is named from its second corner, and for the other diagonal strictly inside again, so that neither diagonal of the quadrilateral is accepted as Delaunay.", "quantifier": "refuted by a witness", "why_tests_cant": "tests on squares and other small examples come out right, because the pivots happen to be exact there", "anchors": ["src/properties/continence.rs: continence"]}
{"id": "C109", "title": "On small grids the in-circle test of binary64 is right for every point that is not on the circle", "statement": "When the coordinates are multiples of 2^k (k from -11 to 100) by integers of at most 1024 in size, the in-circle test, which eliminates with partial pivoting on a 4 by 4 matrix of doubles and so rounds at every division, multiplication and subtraction, nevertheless answers correctly: for a counterclockwise triangle it reports inside exactly when the fourth point is strictly inside the circumscribed circle and outside exactly when it is strictly outside (and the other way round for a clockwise triangle), for every fourth point off the circle, however close, and the tolerance 1e-14 never turns such an answer into boundary. (On the circle the answer can be anything: C108.)", "quantifier": "all such grids, all quadruples of points on them with a non-degenerate triangle and the fourth point off its circle, all doubles that stand for them", "why_tests_cant": "the rounding errors depend on the pivots; there are more than 10^26 quadruples for each spacing", "anchors": ["src/properties/continence.rs: continence", "src/elements/triangle.rs: encircles"]}
{"id": "C110", "title": "In binary64, inserting vertices into a Delaunay mesh gives a Delaunay mesh", "statement": "Take distinct points whose coordinates are multiples of 2^k (k from -11 to 100) by integers of at most 1024 in size, no four of them on a circle, and a mesh of doubles that stands for the Delaunay triangulation of some of them (the two outer faces over a first segment are one). Inserting any others with the crate's own arithmetic never panics, stops, and leaves a mesh of doubles (consistent adjacency, no triangle twice) that stands for the Delaunay triangulation of the old points and of those inserted; at least one is inserted unless all are on a line with the old ones. A vertex inserted alone is always inserted, and inserting one by one gives the Delaunay triangulation of all the points.", "quantifier": "all such grids, point sets of any size, all doubles that stand for the points, all meshes that stand for a Delaunay triangulation, all hash orders, all sufficient step budgets", "why_tests_cant": "each insertion depends on many in-circle tests that round; a wrong one among them may leave a hole, loop or panic only for some sets of points and some iteration orders", "anchors": ["src/planar/triangulation_procedures/vertices.rs: include", "src/planar/triangulation_procedures/vertices.rs: solve_conflicts", "src/elements/triangle.rs: encircles", "src/properties/continence.rs: continence", "src/properties/orientation.rs: orientation", "src/planar/triangulation.rs: from_initial_segment"]}
{"id": "C111", "title": "In binary64, triangulating a polygon fills it with Delaunay triangles", "statement": "Take a strictly convex counterclockwise polygon of three or more distinct corners whose coordinates are multiples of 2^k (k from -11 to 100) by integers of at most 1024 in size, no four of them on a circle. Triangulating it with the crate's own arithmetic returns, and the triangles of doubles it leaves are, corner by corner, those of a filling of the polygon: the solid ones are counterclockwise Delaunay triangles over the corners that cover the inside, cover nothing outside, do not overlap, meet along shared sides or along sides of the polygon, contain every side of the polygon and add up to its area, and the outer faces are exactly those of the sides. For any polygon of positive area, convex or not, each of whose sides has some circle empty of the other corners, triangulation also returns, and whenever every corner is a corner of some solid triangle of the result the same holds.", "quantifier": "all such grids, polygons with any number of corners, all doubles that stand for the corners, all hash orders, all sufficient step budgets", "why_tests_cant": "a wrong rounding in one of the in-circle tests, in one iteration order, would leave a gap or an overlap; there are infinitely many polygons", "anchors": ["src/planar/triangulator.rs: triangulate", "src/planar/triangulation_procedures/boundary.rs: include", "src/planar/triangulation_procedures/vertices.rs: include", "src/properties/continence.rs: continence"]}
{"id": "C112", "title": "The lists for drawing hold the positions of the mesh", "statement": "The list of positions for drawing triangles is, for some order of the solid triangles, the cast coordinates (x, y) of the three corners of each in their order; the list for drawing edges is, for some order of a set of edges that holds every side of a solid triangle in exactly one direction, the cast coordinates of the two ends of each.", "quantifier": "all arithmetics, casts to single precision, triangulations and hash orders", "why_tests_cant": "swapped coordinates or corners show only in pictures; all meshes and iteration orders", "anchors": ["src/glium_interface/vertex.rs: triangles_from_triangulation, edges_from_triangulation"]}
{"id": "C113", "title": "Lists of coordinates are read in pairs", "statement": "A list of coordinates x1, y1, x2, y2, ... is read as the vertices (x1, y1), (x2, y2), ... in this order; as edges it is read as the closed ring through these vertices, the last joined to the first; a list of odd length makes either function panic. An opened polyline has its first vertex as head and its last as tail; a closed one has neither.", "quantifier": "all arithmetics and lists of any length", "why_tests_cant": "lists of any length", "anchors": ["src/elements/vertex.rs: from_coordinates", "src/elements/edge.rs: from_coordinates", "src/glium_interface/vertex.rs: from_coordinates", "src/elements/polyline.rs: head, tail"]}
{"id": "C114", "title": "Boolean operations turn as sharply as they can", "statement": "Over exact arithmetic, the sides of each polygon returned by an intersection or a subtraction each start where the one before ends, and among the sides that were free at this corner (those later in the same polygon and those of the polygons returned later) the one taken makes the least angle with the side before. For a union, the one taken makes the largest angle among the later sides of the outline.", "quantifier": "all pairs of polygons, hash orders and step budgets for which the operation returns", "why_tests_cant": "corners with several continuations are rare in tests, and which one is met first depends on the hash order", "anchors": ["src/elements/polyline.rs: intersection, subtraction, union", "src/properties/angle.rs: angle"]}
{"id": "C115", "title": "How boolean operations cancel sides that run against each other", "statement": "Intersection and subtraction of closed polygons whose boxes meet split all sides at their crossings, then replace pairs of parallel sides that meet, run in opposite directions and either join at an end or have an end outside of one polygon, by what is left of them: from the start of the first to the end of the second, unless these coincide or neither of the inner ends joins or is outside, and likewise the other way. They repeat this until no pair is left. The sides of the polygons returned are among what is left and have their middles where the operation asks for; all else that is left is reported as unused; no two sides of the result cancel each other.", "quantifier": "all arithmetics, closed polygons, hash orders and step budgets for which the operation returns", "why_tests_cant": "which pairs meet depends on the order of the segments, and tests have few sides in common", "anchors": ["src/elements/polyline.rs: intersection, subtraction"]}
{"id": "C116", "title": "Refuted: a removal at the edge of the domain is cut off", "statement": "The claim that the area of a removal does not belong to the domain is false when the removal shares part of a side with the included polygon: subtracting the square (0,0)-(2,2) from (0,0)-(4,4) returns no polygon at all, and an input that includes the second and removes the first is accepted as the whole square without holes.", "quantifier": "one input, evaluated in binary64", "why_tests_cant": "the result is a mesh that looks fine; only comparison with the intended domain shows the lost removal", "anchors": ["src/elements/polyline.rs: subtraction", "src/triangulator_interface/domain_evaluator.rs: boundary", "src/triangulator_interface/mod.rs: parse"]}
{"id": "C117", "title": "The split maps name the parts of the cut segments", "statement": "In the map returned by unencroach every segment is mapped to a constraint that some vertex of the mesh encroached upon and of which it is a part left by cutting at midpoints, and every constraint encroached upon has all its final parts among the keys. In the map returned by split_irregular every key is one of the constraints in force at the end, every constraint in force at the end that is not a key was given, and each key is a part of the segment it is mapped to, which itself comes from the given constraints by repeated cutting.", "quantifier": "all meshes, constraint sets, boundaries and holes, parameters, hash orders, any arithmetic", "why_tests_cant": "the number of cuts, their nesting and the order of the hash sets are unbounded", "anchors": ["src/planar/refine_procedures/encroachment.rs: unencroach", "src/planar/refine_procedures/triangle_split.rs: split_irregular"]}
{"id": "C118", "title": "Inputs are read for what they say", "statement": "Reading a JSON value succeeds with a given input exactly when the value says so: every object has each known field at most once (or is an array of the fields in their order), names, intents and geometries are strings, numbers are integers or reals, indices are integers that are not negative, missing scalars, points and assembles are empty, a missing or null max_area is none, missing id and date are drawn. Values that differ in the order of fields or in fields with other names, at any depth, are read alike and make the program print the same. The same holds of reading back a file written by the program: the value has to give a name and coordinates, the identifier, date, triangles and tetrahedra may be missing, and the order of fields and unknown fields do not matter.", "quantifier": "all JSON values, identifier formats, hash orders, any arithmetic", "why_tests_cant": "the nesting, the number of fields and their orders are unbounded", "anchors": ["src/json_serializar/io.rs: read", "src/json_serializar/models/input.rs: TriangulationInput, RefineParams", "src/json_serializar/models/action.rs: Action", "src/json_serializar/models/point.rs: Point", "src/json_serializar/models/output.rs: Output (Deserialize)"]}
{"id": "C119", "title": "What is written can be read back if it is finite", "statement": "Writing an input whose numbers are finite and reading it gives the input. Writing an output and reading it gives the output when all coordinates are finite, and fails when one is infinite or not a number.", "quantifier": "all inputs and outputs, any arithmetic, any identifier format that reads what it writes", "why_tests_cant": "lists of actions, points and triangles are unbounded", "anchors": ["src/json_serializar/models/output.rs: TriangulationOutput", "src/json_serializar/models/tesselations.rs: Triangle, Tetrahedron", "src/json_serializar/models/input.rs: TriangulationInput"]}
{"id": "C120", "title": "The program from the value read to the value written", "statement": "When the program ends, the value it read says an input, and what it writes reads back (if finite) as the id, name and date of that input with the coordinates and triangles of its triangulation and no tetrahedra. It panics exactly when the value does not say an input, when the input is refused, or when its triangulation panics. For a value that says a convex polygon with vertices deep inside, in exact arithmetic and with sound attempts only, it ends and what it writes reads back as the coordinates and index triples of a mesh that covers the polygon exactly, with a number of coordinates bounded by the polygon alone.", "quantifier": "all JSON values, hash orders, any arithmetic; exact arithmetic for the polygon", "why_tests_cant": "inputs, meshes and hash orders are unbounded", "anchors": ["src/main.rs: main", "src/json_serializar/io.rs: read", "src/json_serializar/models/output.rs: from_triangulator"]}
{"id": "C121", "title": "Refining what meets its targets changes nothing", "statement": "When no vertex of the mesh encroaches a side of the boundary, a side of a hole or a segment, and no triangle misses the targets, refining ends at once, leaves the triangulator exactly as it is, and reports as constraints exactly those sides and segments.", "quantifier": "all triangulators with boundaries and holes that are not empty, all targets, all hash orders, any arithmetic", "why_tests_cant": "all meshes, all hash orders, every arithmetic", "anchors": ["src/planar/triangulator.rs: refine", "src/planar/refine_procedures/encroachment.rs: unencroach_edges", "src/planar/refine_procedures/triangle_split.rs: refine_triangles"]}
{"id": "C122", "title": "A circle is meshed by its corners", "statement": "The corners drawn for a circle of positive radius with n >= 3 segments form a convex polygon told apart by the tolerances, provided that the radius is not tiny compared with n. When the quality target exceeds 1/(2 sin(pi/n)) and the area target, if any, exceeds 2 r^2, the program on an input that asks for the circle terminates without panic and writes exactly the n corners, once each, and the index triples of the triangles of a Delaunay mesh that covers exactly the polygon: nothing is inserted.", "quantifier": "all centres, radii, numbers of corners, targets above the bounds, inputs asking for that circle, all hash orders, exact arithmetic", "why_tests_cant": "all radii and all n; tests fix one circle and see one hash order", "anchors": ["src/triangulator_interface/interpreter/circle_parser.rs", "src/main.rs: main", "src/planar/triangulator.rs: triangulate, refine"]}
{"id": "C123", "title": "The number of triangles follows from the number of points", "statement": "A Delaunay mesh of n different points has 2n - 2 triangles, outer faces included; so has the mesh after any insertion of vertices, and meshes of doubles that stand for it. In a convex polygon with b of the n vertices on its sides, 2n - 2 - b triangles are solid. The program on a convex polygon with vertices writes, after refinement, 2n - 2 - b index triples for n coordinates of which b lie on the polygon, and on a circle of n corners with loose targets n - 2 triples.", "quantifier": "all Delaunay meshes of points of the real plane told apart by the tolerances, all insertions, all hash orders; small grids in binary64; convex polygons and circles as in C106 and C122", "why_tests_cant": "all sizes of meshes; tests count the triangles of a few of them", "anchors": ["src/planar/triangulation_procedures/vertices.rs: include", "src/planar/triangulation.rs: Triangulation", "src/json_serializar/models/output.rs: from_triangulator", "src/main.rs: main"]}
{"id": "C124", "title": "Refining a square with a hole keeps the hole empty and never panics (false)", "statement": "A square with a triangular hole, triangulated into counterclockwise triangles that leave the hole empty, is refined without a panic into triangles that leave the hole empty and do not overlap. This is false: an outer face behind a side of the hole is taken to conflict with every point on its half plane, also with midpoints on the far side of the square, so that for some hash orders refinement covers the hole and covers points twice, and for others it panics. For a hole with an obtuse corner the triangulation itself panics.", "quantifier": "there are triangular holes of the square of side 8, hash orders and parameters (binary64, small integer coordinates)", "why_tests_cant": "the outcome depends on the iteration order of the hash containers, which changes at each run", "anchors": ["src/planar/triangulator.rs: triangulate, refine, insert_hole", "src/planar/triangulation_procedures/vertices.rs: include", "src/planar/refine_procedures/encroachment.rs: unencroach"]}
{"id": "C125", "title": "An outline given clockwise takes out what is inside it", "statement": "Including a closed boundary whose corners are given clockwise, on a Delaunay mesh that has these corners, returns and removes exactly the triangles inside the polygon: a triangle stays if and only if the polygon does not go around its inner points, the outer faces stay, and each side gets an outer face turned to the inside. Triangulating a strictly convex polygon given clockwise returns a mesh without any triangle, with exactly two outer faces at each side. The whole program, asked to include such a polygon (a polyline), accepts it and writes the corners and no index triple, when no corner is within the circle on a side as diameter; otherwise it may panic.", "quantifier": "all Delaunay meshes of points of the real plane told apart by the tolerances, all polygons with corners among them and sides that some circle shows to be free; all strictly convex polygons; all inputs that ask for one, for all targets; all hash orders. The panic is for a literal input in binary64", "why_tests_cant": "all polygons and meshes; the examples only have counterclockwise outlines", "anchors": ["src/planar/triangulation_procedures/boundary.rs: include", "src/planar/triangulator.rs: triangulate, refine", "src/triangulator_interface/interpreter/mod.rs: parse", "src/main.rs: main"]}
{"id": "C126", "title": "Triangulating a simple polygon fills it (false)", "statement": "A closed counterclockwise boundary whose sides do not cross is filled with triangles by the triangulation. This is false: boundary inclusion inserts the corners but does not make the missing sides edges of the mesh (that part is commented out), so that removing what is outside may leak through a missing side. For a polygon with eight corners, all corners are in the mesh and no triangle is left.", "quantifier": "there is a polygon with eight corners with small integer coordinates (binary64) and a hash order", "why_tests_cant": "the outlines of the tests are few and their sides happen to be edges of the mesh of their corners", "anchors": ["src/planar/triangulation_procedures/boundary.rs: include", "src/planar/triangulator.rs: triangulate"]}
{"id": "C127", "title": "The program changes what it is asked to change", "statement": "A run of the program with an output option changes no file but that one and prints nothing; without it, it changes no file and prints one text. The run finishes exactly when the input file holds a value on which the pipeline returns, the output file can be written and, with the show option, a window can be opened. The text delivered is that of the value the pipeline returns, which tells the mesh to its readers, and the window gets the edges of the same mesh. A run that panics leaves everything as it was, unless only the window failed, when the result is already delivered. When the output is written over the input, each later run on that file panics and changes nothing.", "quantifier": "all option values, file systems, arithmetics, hash orders, readers and writers of JSON texts and identifiers; for the last point and the readers, when the text of the value written is read back as that value", "why_tests_cant": "no test runs the program; all contents of files and all ways to fail", "anchors": ["src/main.rs: main, CliOptions", "src/json_serializar/io.rs: read, write", "src/glium_interface/vertex.rs: edges_from_triangulation"]}
{"id": "C128", "title": "A polygon is filled exactly when its sides are free", "statement": "When no four corners share a circle, triangulating a counterclockwise polygon leaves a Delaunay tiling of its inside if and only if each side is free (some circle through its two ends has every other corner strictly outside) and each corner is used by some triangle of the result. So a polygon with a side that is not free is filled by no run, and indeed by no mesh with empty circles.", "quantifier": "all polygons in general position whose corners are resolved by the tolerances, all hash orders and all runs that return, over exact real arithmetic", "why_tests_cant": "which polygons are filled is a statement about all polygons; tests show single ones that are", "anchors": ["src/planar/triangulator.rs: triangulate", "src/planar/triangulation_procedures/boundary.rs: include", "src/planar/triangulation_procedures/vertices.rs: include"]}
{"id": "C129", "title": "The program ends on a square with a triangular hole (false)", "statement": "Given a square to include and a triangle inside it to remove, the program ends and does not panic. This is false: for the square (0,0) (6,0) (6,6) (0,6) and the triangle (2,2) (4,1) (1,3) the input is accepted, but with some iteration orders of the hash sets triangulating it runs forever, so the program neither finishes nor fails and nothing is written; with another order it panics. The triangles that give way to a side of the hole have an outline that touches itself, and Polyline::arrange follows it into a cycle that does not contain its start.", "quantifier": "all squares with a triangular hole, hash orders and numbers of steps; refuted by one input, for all numbers of steps", "why_tests_cant": "a test that hangs shows nothing about what would happen later, and the outcome depends on the hash order of the run", "anchors": ["src/elements/polyline.rs: Polyline::arrange, Polyline::triangles_hull", "src/planar/triangulation_procedures/segment.rs: include", "src/planar/triangulation_procedures/hole.rs: include", "src/planar/triangulator.rs: triangulate", "src/main.rs: main"]}
{"id": "C130", "title": "Putting edges in a row: when it returns, and that it recovers rings", "statement": "Polyline::arrange, given edges no two of which start at the same vertex, returns for every iteration order of the hash containers exactly when from every start following the edges comes back to that start or reaches a vertex where no edge starts; if it returns at all it does so within as many steps as there are edges and one more. If moreover every edge ends where one starts, it returns a polyline exactly when the edges are the sides of one closed polygon of at least three distinct vertices, and the result then is closed, has distinct vertices and exactly those edges as sides; given the sides of a polygon in any order it returns that polygon, starting at one of its vertices. A chain of at least three edges that does not close, however, may be returned as a closed polygon from its second vertex on, with a side that was not given and without one that was.", "quantifier": "all lists of edges, arithmetics in which equality tells the endpoints apart, hash orders and numbers of steps", "why_tests_cant": "the start depends on the hash order of the run, and whether the walk ever ends is not observable by running it", "anchors": ["src/elements/polyline.rs: Polyline::arrange, Polyline::into_edges, Polyline::new_closed"]}
{"id": "C131", "title": "Vertex insertion stays within the boundary it can see", "statement": "When vertices are inserted with a boundary and holes, every triangle that is removed has one of the new vertices in its circle (or on the side of a ghost triangle), and the way from its centre to that vertex is neither cut by nor outside the boundary, and not cut by or inside at least one of the holes if there are any. If no new vertex has any triangle of the mesh like that, the mesh stays as it is and nothing is reported. A vertex inserted by itself goes in if one triangle of the mesh has it in its circle with the way past the boundary and all the holes; with at most one hole it goes in exactly then.", "quantifier": "all arithmetics, hash orders, meshes, vertices, constraints, boundaries, holes and numbers of steps", "why_tests_cant": "ranges over all meshes, boundaries and positions; a triangle wrongly removed behind a corner shows only in rare configurations", "anchors": ["src/planar/triangulation_procedures/vertices.rs: include, distribute_conflicts, solve_conflicts, may_insert_triangle"]}
{"id": "C132", "title": "Printed texts tell what they print", "statement": "If numbers are spelled so that different numbers get different texts without spaces, commas, parentheses or line breaks, then two vertices, edges or triangles print the same exactly when they have the same coordinates in the same order (all ghost vertices being alike). Two triangulations that print the same, in whatever order their hash containers are walked, have the same triangles and the same adjacency, and triangulations that have the same can print the same. Printing a list of coordinates and indices never panics, and two such lists print the same exactly when they agree in all whole pairs of coordinates and whole triples of indices; what is left over is not shown. Coordinates, corners and indices are shown in their order.", "quantifier": "all arithmetics, spellings of numbers, hash orders, vertices, edges, triangles, triangulations and lists of coordinates and indices of any length", "why_tests_cant": "that no two different meshes share a text is a statement about all pairs of meshes; a test compares a few texts with what was expected", "anchors": ["src/elements/vertex.rs: fmt", "src/elements/edge.rs: fmt", "src/elements/triangle.rs: fmt", "src/planar/triangulation.rs: fmt", "src/planar/triangulation_data.rs: fmt"]}
{"id": "C133", "title": "The loops of insertion go round linearly often", "statement": "Putting k vertices in a Delaunay mesh of n vertices returns before any of its loops, each time it is entered, has gone round more than 4n + 5k times. Triangulating an input that is only a polygon of n listed corners, well enough apart, returns before any loop of the run, each time it is entered, has gone round more than 8(n + 1) times.", "quantifier": "all hash orders, all finite Delaunay meshes of the plane, all lists of new vertices and all polygons of any length whose points are far enough from degenerate for the tolerances of the code", "why_tests_cant": "a test times a few inputs; a bound on the work for every mesh, every order of the hash containers and every number of points needs the count of triangles in a Delaunay mesh", "anchors": ["src/planar/triangulation_procedures/vertices.rs: include", "src/planar/triangulation_procedures/boundary.rs: include", "src/planar/triangulator.rs: triangulate"]}
{"id": "C134", "title": "All runs on a convex polygon give one mesh", "statement": "If no four of the points are on one circle, triangulating a convex polygon gives the same triangles in every run, whatever the order of the hash containers and whichever corner the polygon is listed from. The same holds with one free vertex well inside the polygon, and with any number of free vertices, in whatever order they were given, for runs that keep the same vertices.", "quantifier": "all pairs of hash orders and runs that return, all convex polygons of any number of corners listed from any corner, all lists of vertices well inside and their permutations, with points far enough from degenerate for the tolerances of the code", "why_tests_cant": "hash orders change from run to run and cannot be enumerated; a test compares a few runs on a few polygons", "anchors": ["src/planar/triangulator.rs: triangulate", "src/planar/triangulation_procedures/boundary.rs: include", "src/planar/triangulation_procedures/vertices.rs: include"]}
{"id": "C135", "title": "The quality of a triangle tells its smallest angle", "statement": "The angles reported at the corners of a counterclockwise triangle are positive and sum to a half turn. If the reported quality is q, the smallest of them is asin(1/(2q)) and none is above a half turn less twice that. So after a refinement of a convex polygon with quality target r, every triangle has all angles between asin(1/(2r)) and a half turn less twice that, and an area below the area target, unless its circumcentre was tried and turned down.", "quantifier": "all counterclockwise triangles of the plane; all hash orders, targets and refinements that return of meshes of convex polygons of any size", "why_tests_cant": "the relation holds for a continuum of triangles and for every triangle of every refined mesh; a test measures the angles of a few", "anchors": ["src/properties/angle.rs: angle", "src/elements/triangle.rs: quality", "src/planar/triangulator.rs: refine"]}
{"id": "C136", "title": "Refuted: refining a convex polygon with integer corners gives triangles that do not overlap", "statement": "The claim that in binary64 the refined mesh of a convex polygon has only counterclockwise triangles that do not overlap, and the same number of them in every iteration order of the hash sets, is false. For the quadrilateral (0,0), (20,0), (21,19), (1,18) with the free vertices (11,10) and (12,9) and quality target 1000, triangulating gives counterclockwise triangles only, but refining gives, for some orders, a clockwise triangle and triangles that overlap, and for another order a proper mesh; the program writes 9 points both times but 10 triangles in one order and 9 in the other. The line from an inner point to the middle of a side is reported as leaving the polygon, although the middle is a binary64 number.", "quantifier": "existential: one input, two iteration orders of the hash sets", "why_tests_cant": "The tests run with one random hash order at a time and compare with the mesh expected; they do not look for an order that fails.", "anchors": ["src/planar/triangulation_procedures/vertices.rs: solve_conflicts, may_insert_triangle", "src/planar/refine_procedures/encroachment.rs: split_segment", "src/elements/polyline.rs: Polyline::continence", "src/main.rs: main"]}
{"id": "C137", "title": "The number of lines drawn follows from the triangles, and in a convex polygon from the points", "statement": "If the triangles are sewn together (each directed side belongs to one triangle and its reverse to another), twice the number of lines of the wireframe is three times the number of solid triangles plus the number of outer faces, in every arithmetic and hash order. For a Delaunay mesh of a convex polygon with n vertices, b of them on the sides, the wireframe has 3n - 3 - b lines and the vertex list that is drawn twice as many entries; the same holds for what is drawn after a refinement.", "quantifier": "all meshes that are sewn together, all arithmetics and hash orders; all convex polygons with their Delaunay meshes over the reals, all casts to the screen format, all refinements whose attempts are sound", "why_tests_cant": "The counts hold for meshes of every size and for every order in which the triangles are visited; nothing in the crate tests the drawing.", "anchors": ["src/glium_interface/vertex.rs", "src/planar/triangulator.rs: refine", "src/planar/triangulation.rs"]}
{"id": "C138", "title": "Every mesh is made by including and removing triangles, and nothing is written twice", "statement": "Whatever polygon, holes, segments and vertices a triangulator holds, if triangulating ends, the mesh is the result of a sequence of inclusions and removals of triangles that starts from the empty mesh; if refining ends, the mesh is the result of such a sequence that starts from the mesh given. So after both, no triangle is there twice, and the triangle reported next to a side is present and has that side. If the program writes an output, no point is listed twice and no triple of indices is listed twice.", "quantifier": "all triangulators, inputs, refinement targets, arithmetics, hash orders and step budgets", "why_tests_cant": "It holds for every input, degenerate ones included, and for every order in which the hash sets are visited; the tests compare a few meshes.", "anchors": ["src/planar/triangulator.rs: triangulate, refine", "src/planar/triangulation.rs: include_triangle, remove_triangle, adjacency", "src/planar/triangulation_procedures/*.rs", "src/planar/refine_procedures/*.rs", "src/main.rs: main"]}
{"id": "C139", "title": "In binary64, the whole program writes the Delaunay triangulation of a convex polygon that needs no refinement, whatever the hash order", "statement": "Take a convex polygon whose corners are distinct multiples of 2^k (k from -11 to 100) by integers of at most 2^10, no four on a circle. If the input is accepted as that polygon with nothing else, no corner is inside the circle over a side and no counterclockwise triangle of corners misses the targets, then the program ends and writes the corners and, by their indices, exactly the triangles of the Delaunay triangulation that fills the polygon, each once and two fewer than the corners. Two triangulations of the polygon under any two hash orders have the same triangles, up to the corner they start from. A polygon has only one filling by triangles with empty circles if no four corners are on a circle.", "quantifier": "all such polygons, inputs, targets and hash orders, all large enough step budgets, in binary64 arithmetic; for the last claim all polygons over the reals", "why_tests_cant": "The tests round-trip a few examples in one hash order each; rounding, tolerances and the iteration order range over too many cases.", "anchors": ["src/main.rs: main", "src/planar/triangulator.rs: triangulate, refine", "src/triangulator_interface/mod.rs", "src/json_serializar/models/output.rs"]}
{"id": "C140", "title": "In binary64, segments that do not meet are never said to meet, meeting points are found near where they are, simple polygons are read, and the program is correct from the input", "statement": "Take coordinates that are multiples of 2^k (k from -11 to 100) by integers of at most 2^10. Two segments that are not parallel and have no common point have no meeting point by the test. If they have a common point in no row and no column of an end, a point is found, each coordinate within 2^(k-17) of it. An input with one polygon to include, of at least three corners, whose sides without a common end do not meet, is accepted as that polygon, in every hash order and with any step budget above its number of corners. So for a convex polygon with no four corners on a circle, no corner inside the circle over a side and no counterclockwise triangle of corners that misses the targets, the program run on that input ends and writes exactly the Delaunay triangulation of the polygon.", "quantifier": "all such segments, polygons, inputs, targets and hash orders, in binary64 arithmetic", "why_tests_cant": "The meeting point is the quotient of two rounded determinants, compared with a tolerance; how far the rounding can go ranges over all pairs of segments.", "anchors": ["src/properties/intersection.rs", "src/properties/parallel.rs", "src/elements/polyline.rs: split_intersections", "src/triangulator_interface/interpreter/polyline_parser.rs", "src/triangulator_interface/mod.rs", "src/main.rs: main"]}
{"id": "C141", "title": "Two segments that cross are found to cross, and a polygon that crosses itself is refused", "statement": "False in binary64 (as C140 needs its condition on rows and columns): the segments (100, 0)-(100, 49) and (99, 20)-(101, 30) cross at (100, 25), inside both, and no meeting point is found in either order, because the rounded abscissa misses the vertical segment by more than the tolerance. The polygon with these four corners crosses itself and is accepted in every hash order; in one of them the program then panics.", "quantifier": "the claim ranges over all pairs of segments and all polygons; it is refuted by a witness", "why_tests_cant": "The tests cross segments at small coordinates, where the rounding stays below the tolerance.", "anchors": ["src/properties/intersection.rs", "src/elements/polyline.rs: split_intersections", "src/triangulator_interface/interpreter/polyline_parser.rs", "src/main.rs: main"]}
{"id": "C142", "title": "In binary64, the whole program writes the Delaunay triangulation of a polygon, convex or not, when the other corners are outside the circle over each side", "statement": "Take a counterclockwise polygon whose corners are distinct multiples of 2^k (k from -11 to 100) by integers of at most 2^10, no four on a circle, such that every corner but the two ends is outside the circle over each side. Then sides without a common end do not meet. An input with that polygon to include and nothing else is accepted and triangulated, in every hash order. If no counterclockwise triangle of corners misses the targets and the mesh has every corner in a triangle, the program ends and writes the corners and, by their indices, exactly the triangles of the Delaunay triangulation that fills the polygon, each once. Two such meshes have the same triangles, up to the corner they start from.", "quantifier": "all such polygons, inputs, targets and hash orders, all large enough step budgets, in binary64 arithmetic; for the first claim all polygons over the reals", "why_tests_cant": "The tests run a few polygons in one hash order each; reflex corners, rounding and the iteration order range over too many cases.", "anchors": ["src/main.rs: main", "src/triangulator_interface/interpreter/polyline_parser.rs", "src/planar/triangulator.rs: triangulate, refine", "src/planar/triangulation_procedures/boundary.rs", "src/json_serializar/models/output.rs"]}
{"id": "C143", "title": "A polygon whose other corners are outside the circle over each side is meshed, whatever the hash order", "statement": "Take a counterclockwise polygon whose corners have small whole coordinates, no four on a circle, such that every corner but the two ends is outside the circle over each side, and targets no triangle of corners misses. For an input with that polygon to include and nothing else, the program writes the n - 2 triangles of its Delaunay triangulation in every hash order. (False: for (4,12), (1,12), (2,10), (2,9), (1,5), (5,3), (8,4), (13,13), (12,15) it writes seven triangles in one hash order and none in another: batch insertion drops a corner, the outline has gaps and the flood from outside removes everything.)", "quantifier": "all such polygons, inputs, targets and hash orders, in binary64 arithmetic", "why_tests_cant": "Whether a corner is dropped depends on the random seeds of the hash sets: most runs on this polygon are right.", "anchors": ["src/planar/triangulation_procedures/vertices.rs: include, solve_conflicts", "src/planar/triangulation_procedures/boundary.rs: include", "src/main.rs: main"]}
{"id": "C144", "title": "In binary64, the program on files: the file written holds the corners of the polygon bit by bit and its Delaunay triangulation", "statement": "Let the input file hold an input with one polygon to include, of the kind of C139 or of C142, and targets no triangle of corners misses. Let the output file be writable, a display be there if a window is asked for, and the text of what is written be read back as it was. Then the program finishes. The output file holds a report with the id, the name and the date of the input, the corners as the very doubles of the input in some order and, by their indices, exactly the triangles of the Delaunay triangulation that fills the polygon, each once. No other file changes and nothing is printed. For polygons of the kind of C142 this is claimed when every corner is in a triangle of the mesh.", "quantifier": "all such polygons, inputs, identifiers, file systems, options, targets and hash orders, all large enough step budgets, in binary64 arithmetic", "why_tests_cant": "No test runs the program on files; inputs, file systems and iteration orders range over too many cases.", "anchors": ["src/main.rs: main, Cli", "src/json_serializar/io.rs", "src/json_serializar/models/output.rs", "src/planar/triangulator.rs: triangulate, refine"]}
{"id": "C145", "title": "Quadrilaterals are filled, in the real plane and in binary64, whatever corner they start from", "statement": "Given at once to the segment over the first two, four distinct vertices that are not on a line are all used: the mesh is Delaunay over the four. So a counterclockwise quadrilateral, convex or not, whose sides each have a circle through their ends with the other corners outside, is triangulated and the triangles fill it: they cover its inside once and nothing else, and each side is there. This holds in the real plane for corners that are further apart than the tolerance, and in binary64 for corners that are multiples of 2^k (k from -11 to 100) by integers of at most 2^10, no four on a circle. In binary64 two hash orders give the same triangles, up to the corner they start from.", "quantifier": "all such quadrilaterals, from any of their corners, all hash orders, all large enough step budgets", "why_tests_cant": "The tests run a few polygons in one hash order each; positions, orders of corners and iteration orders range over infinitely many cases.", "anchors": ["src/planar/triangulator.rs: triangulate", "src/planar/triangulation_procedures/vertices.rs: include, solve_conflicts, distribute_conflicts_over_triangulation", "src/planar/triangulation_procedures/boundary.rs"]}
{"id": "C146", "title": "Which inputs are answered with an error and which make the program panic", "statement": "Actions are read in order, and the first one without a meaning decides. The input is answered with an error exactly when that action has an unknown geometry, an intent that its geometry does not allow, a polyline without points or whose sides cut each other, a circle without a radius or without exactly one centre, an odd number of segment ends, or a pair of fewer than two indices. It panics exactly when that action is a polyline of one or two points whose sides do not cut each other, a circle of fewer than three corners, or a segment between points that are not there. Parsing a file then answers in the same way, and the command-line program stops there in both cases, before anything is meshed.", "quantifier": "all inputs of any length, all arithmetics, all hash orders, all step budgets", "why_tests_cant": "Tests feed a few malformed inputs; this covers every input and tells errors from panics in both directions.", "anchors": ["src/triangulator_interface/interpreter/mod.rs: interpret", "src/triangulator_interface/interpreter/polyline_parser.rs", "src/triangulator_interface/interpreter/circle_parser.rs", "src/triangulator_interface/interpreter/segments_parser.rs"]}
{"id": "C147", "title": "What parsing answers for one ring with constraints, and without an include", "statement": "An input whose actions all have a meaning but that includes nothing is answered with an error. An input that includes one ring and removes nothing never panics, whatever segments and vertices it asks for. It is answered with an error only when one of them is not strictly inside the ring; otherwise the triangulator has that ring, no holes and the given targets, and all of them are inside. Without segments the answer always comes, and the free vertices are exactly those asked for.", "quantifier": "all inputs with at most one include and no removal, any numbers of segments and vertices, all arithmetics, all hash orders, all (positive, for the last sentence) step budgets", "why_tests_cant": "Any number of actions in any order, each hash order and each arithmetic.", "anchors": ["src/triangulator_interface/mod.rs: parse", "src/triangulator_interface/domain_evaluator.rs", "src/planar/triangulator.rs: insert_vertices, insert_segments"]}
