{"id": "C01", "title": "UniqueList behaves like an insertion-ordered set", "statement": "After any sequence of push_back, push_list, clear and delete_element calls on a UniqueList whose element type is strictly weakly ordered: getList() contains no two equivalent elements; push_back(x) returns an index i with getList()[i] equivalent to x, appends x only if no equivalent element is present, and never moves or changes elements already stored; contains(x) is true exactly when an equivalent element is in getList(); delete_element(x) removes exactly the element equivalent to x and keeps the order of the others.", "quantifier": "every strict weak order, every finite history of operations, every element", "why_tests_cant": "the invariant ties a vector to a map over unbounded histories; a test samples a few short histories", "anchors": ["lib/utilities/include/utilities/UniqueList.h: UniqueList::push_back, push_list, clear, delete_element, contains"]}
{"id": "C02", "title": "UniqueList::pop_front leaves stale indices", "statement": "Documented expectation: after pop_front the indices returned by push_back still locate the element in getList(). Violated: for every list of at least two distinct elements, after pop_front, push_back of any element that is still present returns its old position (one too large), so for the last element the returned index is outside getList().", "quantifier": "every duplicate-free list with at least two elements", "why_tests_cant": "the stale index is only visible after a particular history and is silently wrong", "anchors": ["lib/utilities/include/utilities/UniqueList.h: UniqueList::pop_front, push_back"]}
{"id": "C03", "title": "force_push_back bypasses membership", "statement": "Documented expectation: contains(x) answers whether x is in getList(). Violated by force_push_back: an element added only with force_push_back is in getList() but contains() is false, and a later push_back adds it a second time.", "quantifier": "every list and every element not yet in it", "why_tests_cant": "requires a specific history; the duplicate is silent", "anchors": ["lib/utilities/include/utilities/UniqueList.h: UniqueList::force_push_back, contains"]}
{"id": "C04", "title": "Point < and == are mutually consistent", "statement": "For every positive tolerance and all points a, b exactly one of a<b, b<a, a==b holds; < is irreflexive and asymmetric; == is reflexive and symmetric. The same holds for all finite IEEE binary64 coordinates.", "quantifier": "all pairs of points, all positive tolerances, exact coordinates and all finite doubles", "why_tests_cant": "depends on all pairs of real or double coordinates around the tolerance boundary", "anchors": ["delynoi/src/models/basic/Point.cpp: Point::operator==, Point::operator<"]}
{"id": "C05", "title": "Point::operator< is a strict weak order only on tolerance-separated sets", "statement": "Expectation (needed by std::map and UniqueList): < on points is a strict weak order. Violated: == is not transitive and there are points with a==b, b==c, a<c, so the set of unique points obtained depends on the insertion order. It holds on every set of points in which 'within tolerance' is transitive separately on x and on y.", "quantifier": "all triples of points; all point sets", "why_tests_cant": "the failing triples sit on the tolerance boundary; the positive half ranges over all sets", "anchors": ["delynoi/src/models/basic/Point.cpp: Point::operator<", "lib/utilities/include/utilities/UniqueList.h: push_back"]}
{"id": "C06", "title": "Segments are unordered pairs and hash consistently", "statement": "IndexSegment ==, EdgeData ==, NeighboursBySegment == and Key == hold exactly when the two index pairs are equal as unordered pairs; each is an equivalence relation; equal keys have equal hash values, so a lookup in a hash map keyed by them finds the same entry whatever the number of buckets and whichever way round the endpoints are given. IndexSegment < is a strict total order on ordered pairs and therefore distinguishes (a,b) from (b,a) although they are ==.", "quantifier": "all int endpoints, all bucket counts, all map contents", "why_tests_cant": "quantifies over all keys and table layouts", "anchors": ["delynoi/src/models/basic/IndexSegment.cpp", "delynoi/include/delynoi/voronoi/structures/mapdata.h: Key, KeyHasher, SegmentHasher", "delynoi/src/models/neighbourhood/EdgeData.cpp", "delynoi/src/models/neighbourhood/NeighboursBySegment.cpp"]}
{"id": "C07", "title": "hash32 executes signed overflow", "statement": "Expectation: hashing a vertex index is defined behaviour. Violated: for every int key except exactly 61, -62, 477223760 and -477223761 the int computation of hash32 overflows (undefined behaviour in C++). With wrap-around semantics hash32 always returns an int, and hash32(k) = hash32(-1-k) for every int k.", "quantifier": "all int keys", "why_tests_cant": "overflow is invisible to a passing test on a wrapping compiler", "anchors": ["lib/utilities/src/utilities.cpp: hash32"]}
{"id": "C08", "title": "SegmentMap records the first and the latest incident polygon", "statement": "After any history of insert(segment, polygon), insert(segment, neighbours) and get calls, get(s) for an inserted segment s (in either orientation) returns as first neighbour the polygon of the first insertion and as second neighbour the polygon of the last further insertion, or -1 when there was only one; other segments are unaffected; size() is the number of distinct unordered segments; containsSegment(s) is true exactly for those.", "quantifier": "all histories of insertions, all segments", "why_tests_cant": "unbounded histories, unordered keys", "anchors": ["delynoi/src/models/neighbourhood/SegmentMap.cpp: insert, get, size, containsSegment"]}
{"id": "C09", "title": "SegmentMap::get / Mesh::getNeighbours is not a pure lookup", "statement": "Expectation: looking up the neighbours of a segment does not change the map. Violated: get(s) on an absent segment inserts it with an uninitialised first neighbour, size() grows by one, containsSegment(s) becomes true, and a later insert(s, polygon) stores polygon as the second neighbour.", "quantifier": "every map and every absent segment", "why_tests_cant": "a test that reads the value cannot see the mutation or the uninitialised field", "anchors": ["delynoi/src/models/neighbourhood/SegmentMap.cpp: get", "delynoi/include/delynoi/models/Mesh.h: getNeighbours", "delynoi/include/delynoi/models/neighbourhood/NeighboursBySegment.h"]}
{"id": "C10", "title": "PointMap accumulates every polygon of a point in order", "statement": "On tolerance-separated points, after any history of insert(p, i) and insert(p, list) calls, get(p) returns exactly the indices inserted for points equal to p, in insertion order; size() is the number of distinct points.", "quantifier": "all histories of insertions", "why_tests_cant": "unbounded histories", "anchors": ["delynoi/src/models/neighbourhood/PointMap.cpp"]}
{"id": "C11", "title": "Polygon edges form a closed chain", "statement": "getSegments of a polygon with vertices v0..v(n-1) appends exactly the n segments (v_i, v_(i+1 mod n)) in order and leaves what the vector already held; every vertex is the first endpoint of exactly one of them and the second endpoint of exactly one.", "quantifier": "all polygons, all n", "why_tests_cant": "all sizes including wrap-around", "anchors": ["delynoi/src/models/polygon/Polygon.cpp: getSegments"]}
{"id": "C12", "title": "Polygon area is the shoelace area", "statement": "In exact arithmetic getArea, signedArea, calculateArea and geometry_functions::area agree and equal half the sum of cross products of consecutive vertices; the value is unchanged by rotating the vertex list and by translating all points, and changes sign when the list is reversed; out-of-range vertex indices are undefined behaviour and all in-range ones are defined.", "quantifier": "all vertex lists of any length, all real coordinates, all translations and rotations", "why_tests_cant": "all sizes and coordinates", "anchors": ["delynoi/src/models/polygon/Polygon.cpp: calculateArea, getArea, signedArea", "delynoi/src/utilities/geometryFunctions.cpp: area, triangleArea, area2"]}
{"id": "C13", "title": "isClockwise decides the sign of the area and fixCCW normalises it", "statement": "isClockwise(points) is true exactly when the signed area is negative; after fixCCW the polygon is not clockwise, getArea is the absolute value of the previous area, the vertex set, hash and undirected edge set are unchanged, and a second fixCCW changes nothing.", "quantifier": "all non-empty polygons, all coordinates", "why_tests_cant": "all sizes and coordinates", "anchors": ["delynoi/src/models/polygon/Polygon.cpp: isClockwise, fixCCW"]}
{"id": "C14", "title": "getArea and getDiameter cache the first answer", "statement": "After the first call getArea(points) (area different from -1) or getDiameter(points) returns the same value for every later call whatever point vector is passed, until fixCCW reverses the polygon or mutate is called; the first call returns the freshly computed value; a polygon whose area is exactly -1 is recomputed on every call.", "quantifier": "all polygons, all sequences of queries with all point vectors", "why_tests_cant": "histories of queries with different arguments", "anchors": ["delynoi/src/models/polygon/Polygon.cpp: getArea, getDiameter, fixCCW, mutate"]}
{"id": "C15", "title": "getCentroid returns the origin", "statement": "Documented contract: getCentroid returns the polygon centroid. Violated for every polygon: after every constructor, getCentroid(points) returns (0,0) whatever the vertices and never computes anything, because the validity test is inverted; the private centroid formula itself is correct (translation-equivariant, independent of the starting vertex and of orientation, and equal to the vertex average for triangles).", "quantifier": "all polygons of non-zero area, all coordinates", "why_tests_cant": "tests on polygons centred at the origin pass; the universal claim covers every polygon", "anchors": ["delynoi/src/models/polygon/Polygon.cpp: getCentroid, calculateCentroid", "delynoi/src/models/basic/Point.cpp: Point::isValid"]}
{"id": "C16", "title": "The self-intersection guard of the constructors never fires", "statement": "Documented contract: constructing a self-intersecting polygon throws. Violated: Polygon(indices, points) and Polygon(points) succeed for every input, including a bow-tie for which isSelfIntersecting is true afterwards; only mutate and Region(polygon, points) throw.", "quantifier": "all index lists and point vectors", "why_tests_cant": "needs all inputs", "anchors": ["delynoi/src/models/polygon/Polygon.cpp: Polygon::Polygon, mutate, isSelfIntersecting"]}
{"id": "C17", "title": "mutate is not exception safe", "statement": "Expectation: when Region::mutate throws because the new outline self-intersects, the region is unchanged. Violated: the outline and vertex list have already been replaced (only cached area, diameter, centroid and hash are kept from the old outline).", "quantifier": "all regions and all self-intersecting outlines", "why_tests_cant": "state after an exception, for every outline", "anchors": ["delynoi/src/models/polygon/Polygon.cpp: mutate", "delynoi/src/models/Region.cpp: mutate"]}
{"id": "C18", "title": "isSelfIntersecting checks exactly the non-adjacent edge pairs", "statement": "On a polygon with valid indices isSelfIntersecting(points) is true exactly when two edges that are neither equal nor cyclically adjacent are reported as intersecting; triangles are never self-intersecting; the answer does not depend on the starting vertex.", "quantifier": "all polygons", "why_tests_cant": "all sizes, modular index arithmetic", "anchors": ["delynoi/src/models/polygon/Polygon.cpp: isSelfIntersecting"]}
{"id": "C19", "title": "Segment intersection is sound and complete for crossing segments", "statement": "In exact arithmetic, whenever two segments are reported as intersecting the returned point lies on both supporting lines and, when the tolerance is 0, on both segments; any two non-parallel segments sharing a point are reported and the returned point is that point; when false is returned the output point is unchanged; the answer and the point do not depend on the order of the two segments.", "quantifier": "all quadruples of points, all tolerances >= 0", "why_tests_cant": "all real inputs", "anchors": ["delynoi/src/models/basic/Segment.cpp: intersects", "delynoi/src/models/basic/IndexSegment.cpp: intersection"]}
{"id": "C20", "title": "Parallel segments never intersect and 'infinite' lines are bounded", "statement": "Expectations: overlapping collinear segments intersect; intersectionInfinite finds the intersection of any two non-parallel lines. Both violated: segments on parallel (or the same) line are always reported as not intersecting, even when identical; intersectionInfinite returns false exactly when the meeting point lies outside the first segment (beyond the tolerance) or the lines are parallel.", "quantifier": "all quadruples of points", "why_tests_cant": "all real inputs", "anchors": ["delynoi/src/models/basic/Segment.cpp: intersects, intersectionInfinite"]}
{"id": "C21", "title": "Segment::contains accepts every point of the segment and only points near its line", "statement": "For every positive tolerance, contains is true for every convex combination of the endpoints, does not depend on the order of the endpoints, and when true the point is in the bounding box of the endpoints enlarged by the tolerance and |cross product| < tolerance; but it is not a distance test: some points further than the tolerance from the segment are accepted.", "quantifier": "all points and segments, all positive tolerances", "why_tests_cant": "all real inputs", "anchors": ["delynoi/src/models/basic/Segment.cpp: contains"]}
{"id": "C22", "title": "containsPoint implements the even-odd rule with its border", "statement": "For any polygon without near-duplicate consecutive vertices: a point on an edge is contained; a point outside the bounding box enlarged by the tolerance is not contained; the crossing part of the answer does not depend on starting vertex or orientation and equals the parity of the number of fan triangles (v0,v_i,v_(i+1)) containing the point; for strictly convex polygons every strictly interior point is contained and every point strictly outside an edge and not within tolerance of the border is not. inEdges says exactly whether the point is near the border, and containerEdge returns the first such edge or (-1, -1).", "quantifier": "all polygons of any size, all points", "why_tests_cant": "all polygons and points, including points level with vertices", "anchors": ["delynoi/src/models/polygon/Polygon.cpp: containsPoint, inEdges, containerEdge"]}
{"id": "C23", "title": "containsPoint can accept points far outside near-duplicate outlines", "statement": "Expectation: a point whose distance to the polygon is large is never contained. Violated when the last vertex coincides (within tolerance) with the previous one: the skipped vertex leaves a gap in the outline and points at any distance to the right at the height of the gap are reported inside.", "quantifier": "all distances to the right", "why_tests_cant": "needs an input within 1e-5 of degeneracy", "anchors": ["delynoi/src/models/polygon/Polygon.cpp: containsPoint"]}
{"id": "C24", "title": "isConvex accepts all convex polygons but also non-convex ones", "statement": "A polygon whose consecutive turns are all >= 0 or all <= 0 is reported convex; a polygon whose first turn is non-zero is rejected exactly when some turn has the opposite sign; but if the first three vertices are collinear every polygon is reported convex, and a triangle is always reported convex whatever its orientation.", "quantifier": "all polygons with at least three vertices", "why_tests_cant": "all sizes and coordinates", "anchors": ["delynoi/src/models/polygon/Polygon.cpp: isConvex"]}
{"id": "C25", "title": "containsEdge decides membership among the polygon edges", "statement": "For a polygon with at least three distinct vertices containsEdge(s) is true exactly when s equals, as an unordered pair, one of the segments of getSegments.", "quantifier": "all polygons, all segments", "why_tests_cant": "all sizes, wrap-around edge", "anchors": ["delynoi/src/models/polygon/Polygon.cpp: containsEdge"]}
{"id": "C26", "title": "Polygon equality is hash equality", "statement": "Polygons with the same vertices in any order compare ==, and < is a strict weak order whose equivalence is ==. The converse fails: polygons with the same vertices in a different cyclic order, and even polygons with disjoint vertex sets, compare ==.", "quantifier": "all polygons", "why_tests_cant": "collisions are rare; order-insensitivity is universal", "anchors": ["delynoi/src/models/polygon/Polygon.cpp: operator==, operator<, calculateHash"]}
{"id": "C27", "title": "convexHull returns the hull chains", "statement": "For every point set, convexHull returns two chains made of input points, both sorted left to right from the lexicographically smallest to the largest point, strictly turning right (upper) and left (lower), such that no input point lies strictly above the upper chain or strictly below the lower chain.", "quantifier": "all finite point sets, exact coordinates", "why_tests_cant": "all sizes and coordinates", "anchors": ["delynoi/src/utilities/convexHull.cpp: convexHull"]}
{"id": "C28", "title": "getDiameter is the largest vertex distance", "statement": "For every polygon with at least two vertices, the diameter computed with rotating calipers equals the maximum distance between two vertices (exact arithmetic); the caliper loop terminates and stays within the hull vectors; for a single vertex the result is -1 instead of 0 and for an empty polygon the loop reads out of bounds.", "quantifier": "all point sets", "why_tests_cant": "correctness of an angular sweep over all configurations", "anchors": ["delynoi/src/utilities/convexHull.cpp: rotatingCalipers", "delynoi/src/models/polygon/Polygon.cpp: calculateDiameter, getDiameter"]}
{"id": "C29", "title": "getMaxDistance is the longest edge", "statement": "Documented contract: maximum distance between any two vertices. Violated: getMaxDistance returns the length of the longest edge, which never exceeds the maximum vertex distance and is smaller for e.g. every square.", "quantifier": "all polygons", "why_tests_cant": "all sizes and coordinates", "anchors": ["delynoi/src/models/polygon/Polygon.cpp: getMaxDistance"]}
{"id": "C30", "title": "Circumcenter is equidistant from the vertices", "statement": "For every triangle of non-zero area the circumcenter has the same distance to the three vertices and is the only such point; it does not depend on the order of the vertices; for collinear vertices the computation divides by zero.", "quantifier": "all triangles", "why_tests_cant": "all real inputs", "anchors": ["delynoi/src/models/polygon/Triangle.cpp: calculateCircumcenter"]}
{"id": "C31", "title": "thirdPoint returns the vertex opposite to an edge", "statement": "For a triangle with three distinct vertices and any of its edges, in either direction, thirdPoint returns the remaining vertex; consequently nextEdge(center, edge) looks up the other edge of the triangle at center.", "quantifier": "all triangles, all their edges", "why_tests_cant": "all index values", "anchors": ["delynoi/src/models/polygon/Triangle.cpp: thirdPoint, nextEdge"]}
{"id": "C32", "title": "Center triangulation partitions the polygon area", "statement": "On acceptance, CenterTriangulationGenerator returns exactly n triangles (v_i, v_(i+1 mod n), c), appends exactly one point c (the vertex average) to the point vector leaving the others in place, and the signed triangle areas add up to the polygon's area; for a polygon whose turns are all positive (with respect to all vertices) every triangle has positive area; a polygon rejected by isConvex makes it throw with the points unchanged.", "quantifier": "all polygons of any size", "why_tests_cant": "all sizes and coordinates", "anchors": ["delynoi/src/triangulation/CenterTriangulationGenerator.cpp"]}
{"id": "C33", "title": "Ear triangulation conserves signed area and terminates", "statement": "EarTriangulationGenerator always terminates; every returned triangle has its three vertices among the polygon's vertices; at most n-2 triangles are returned; the signed areas of the returned triangles plus the signed area of the part not triangulated equal the polygon's area, and exactly n-2 triangles with the full area are returned when it completes; the point vector is unchanged.", "quantifier": "all polygons of any size", "why_tests_cant": "all sizes, data-dependent control flow", "anchors": ["delynoi/src/triangulation/EarTriangulationGenerator.cpp"]}
{"id": "C34", "title": "Ear triangulation emits triangles outside the polygon", "statement": "Expectation: the triangles tile the polygon. Violated: reflex vertices are accepted as ears (the convexity test on a triangle is always true), so for some simple counter-clockwise polygons a returned triangle has negative orientation and lies outside the polygon.", "quantifier": "existence; the cause (the convexity test accepts every triangle) holds for all triangles", "why_tests_cant": "needs a particular vertex order", "anchors": ["delynoi/src/triangulation/EarTriangulationGenerator.cpp: getEar", "delynoi/src/models/polygon/Polygon.cpp: isConvex"]}
{"id": "C35", "title": "getBox is the tightest bounding box", "statement": "For every region getBox contains every vertex; for a region with at least one vertex and coordinates in [-2^63, 2^63] each of its four sides touches a vertex, while outside that range the box need not be tight (exact arithmetic).", "quantifier": "all regions", "why_tests_cant": "all sizes and coordinates", "anchors": ["delynoi/src/models/Region.cpp: getBox", "delynoi/src/models/polygon/BoundingBox.cpp"]}
{"id": "C36", "title": "Seed points lie in the domain right after every seeding call", "statement": "After addSeedPoints, generateSeedPoints or addSeedsFromFile every seed is contained in the outline and in no hole, seeds keep their relative order, and no seed satisfying this is dropped. The invariant is not preserved by addHole or mutate, which do not clean the seeds: there are histories after which a seed lies inside a hole.", "quantifier": "all regions, all histories of calls, all seed sets", "why_tests_cant": "histories", "anchors": ["delynoi/src/models/Region.cpp: clean, addSeedPoints, generateSeedPoints, addSeedsFromFile, addHole"]}
{"id": "C37", "title": "addSeedPoints replaces, the other seeding calls append", "statement": "addSeedPoints(s) discards all previous seeds and keeps the contained points of s, although documented to add; generateSeedPoints and addSeedsFromFile keep the previous (still contained) seeds and append.", "quantifier": "all regions and histories", "why_tests_cant": "histories", "anchors": ["delynoi/src/models/Region.cpp: addSeedPoints, generateSeedPoints, addSeedsFromFile"]}
{"id": "C38", "title": "Copying a Region drops its seeds", "statement": "Expectation: a copied region equals the original. The copy constructor keeps outline, vertex indices, holes and cached values but the copy has no seed points, so passing a region by value loses its seeds.", "quantifier": "all regions", "why_tests_cant": "all states", "anchors": ["delynoi/src/models/Region.cpp: Region(const Region&)"]}
{"id": "C39", "title": "Region segments index the region points", "statement": "For every region whose holes were built as polygonal or circular holes, getSegments and getRegionPoints agree: every segment index is within getRegionPoints, the segments of the outline join consecutive outline points and those of each hole join consecutive points of that hole (closing the loop).", "quantifier": "all regions with any number of holes", "why_tests_cant": "offset arithmetic over any number of holes", "anchors": ["delynoi/src/models/Region.cpp: getSegments, getRegionPoints", "delynoi/include/delynoi/models/hole/Hole.h: getSegments"]}
{"id": "C40", "title": "Region::containsPoint ignores holes", "statement": "Expectation: a point strictly inside a hole is not in the region. Violated: Region::containsPoint depends on the outline only, and adding an interior hole never changes its answer. Region::inEdges says exactly whether the point is near the outline.", "quantifier": "all regions, all hole lists, all points", "why_tests_cant": "all states", "anchors": ["delynoi/src/models/Region.cpp: containsPoint, inEdges"]}
{"id": "C41", "title": "addHole outcomes", "statement": "For every answer of the clipping library, addHole does exactly one of: replace the outline by the single returned path divided by the scale (hole not recorded; throwing after the replacement if it self-intersects), append the hole unchanged (outline unchanged), or throw with the region unchanged. In particular a hole disjoint from the region, for which the difference is one path, is not rejected but silently rewrites the outline with its truncated coordinates. Coordinates with |scale*x| >= 2^31 make the integer conversion undefined behaviour (|x| > 21474.83648 with the default scale).", "quantifier": "all regions, holes, scales and all clipping results", "why_tests_cant": "all results of the external library", "anchors": ["delynoi/src/models/Region.cpp: addHole"]}
{"id": "C42", "title": "Scaling to integers loses less than one grid unit", "statement": "In exact arithmetic the coordinate written back after truncation to the integer grid differs from the original by less than 1/scale, never moves away from 0, and is exact for multiples of 1/scale; on doubles (scaled coordinates up to 2^30) the difference is less than (1 + 2^-20)/scale and coordinates whose scaled value is an integer come back unchanged, while some decimal grid coordinates, which are not exactly representable, are moved by a full unit.", "quantifier": "all coordinates, all positive scales", "why_tests_cant": "all real inputs; rounding cases", "anchors": ["delynoi/src/models/Region.cpp: addHole", "delynoi/src/models/hole/clipper/ClipperWrapper.cpp: scalePoint"]}
{"id": "C43", "title": "discretizeCircle terminates only for grades 1..360 and its size is not the grade", "statement": "For 1 <= grade <= 360 the circle is discretised into ceil(360 / floor(360/grade)) points, which equals grade exactly when grade divides 360; every point is at distance |radius| of the centre; grade > 360 or negative grades loop forever; grade 0 is a division by zero.", "quantifier": "all int grades, all radii and centres", "why_tests_cant": "non-termination and all integer grades", "anchors": ["delynoi/src/models/polygon/Circle.cpp: discretizeCircle"]}
{"id": "C44", "title": "Polygonal holes always report the origin as center", "statement": "Expectation: getCenter of a polygonal hole is a point of the hole (it is handed to Triangle as the hole seed and used to accept or reject the hole). Violated: it is (0,0) for every polygonal hole.", "quantifier": "all polygonal holes", "why_tests_cant": "holes around the origin pass", "anchors": ["delynoi/src/models/hole/PolygonalHole.cpp", "delynoi/src/models/Region.cpp: addHole"]}
{"id": "C45", "title": "PointGenerator fills the box with a row-major grid", "statement": "generate appends exactly nX*nY points (none if either is <= 0) after the existing ones; point i*nX+j is computed from xMin+j*width/(nX-1), yMin+i*height/(nY-1), its x being the x rule applied to that x and its y the y rule applied to that y (rules with state being applied in this order); with the constant rules and nX,nY >= 2 all points lie in the box, the four corners are generated and the spacing is uniform. With nX = 1 or nY = 1 the coordinates are NaN.", "quantifier": "all boxes, all nX, nY, all rules", "why_tests_cant": "all sizes", "anchors": ["delynoi/src/models/generator/PointGenerator.cpp"]}
{"id": "C46", "title": "displace_points alternates", "statement": "The k-th call (k = 1,2,...) of a displace_points(delta) rule on x returns x + delta/2 for odd k and x for even k, for every sequence of arguments.", "quantifier": "all call sequences", "why_tests_cant": "histories", "anchors": ["delynoi/src/models/generator/functions/FunctorClasses.cpp: DisplaceDelta"]}
{"id": "C47", "title": "constantAlternating drifts after the second batch", "statement": "For any row of n >= 2 distinct values fed repeatedly, the first batch is returned unchanged; in the second batch the first two values are displaced by half the distance of the first two values as documented, and the remaining ones by half the distance of the second and third value; in the third batch the first value is still displaced while the second is not, so rows do not alternate as a whole. In general values are displaced in blocks of n+1, not of n.", "quantifier": "all rows of distinct values", "why_tests_cant": "history of three batches of any length", "anchors": ["delynoi/src/models/generator/functions/FunctorClasses.cpp: ConstantAlternating"]}
{"id": "C48", "title": "Configuration setters are independent and persistent", "statement": "After any history of setter calls on the configuration singleton each getter returns the last value set with the corresponding setter (either setPrecision overload counts), or the default (12, 0.00001, 100000, 6) if there was none.", "quantifier": "all histories", "why_tests_cant": "histories", "anchors": ["delynoi/src/config/DelynoiConfig.cpp"]}
{"id": "C49", "title": "The planar graph handed to Triangle is well formed", "statement": "For every region with well-formed holes and every seed list, on tolerance-separated points: the point list passed to the triangulator has no two equal points and contains every seed and every region point; every region segment is passed with indices within the list that denote the segment's end points; the hole list has one entry per hole. A restricted segment whose end point is not among the points is passed with index -1.", "quantifier": "all regions, seeds, restricted segments", "why_tests_cant": "all sizes", "anchors": ["delynoi/src/voronoi/TriangleDelaunayGenerator.cpp: callTriangle"]}
{"id": "C50", "title": "Delaunay edges know their incident triangles", "statement": "For every triangulator output in which every side of every triangle is listed as an edge and edges are listed once: each edge of the mesh records exactly the first and the last of the triangles having it as a side (second = -1 when there is only one), so that in a manifold triangulation the neighbour map gives exactly the incident triangles; each point's start edge is its last boundary edge if it has one and otherwise its first edge.", "quantifier": "all triangulator outputs", "why_tests_cant": "all sizes", "anchors": ["delynoi/src/voronoi/TriangleDelaunayGenerator.cpp: callTriangle", "delynoi/include/delynoi/voronoi/structures/PointData.h"]}
{"id": "C51", "title": "A generator triangulates at most once, whichever method is called first", "statement": "For every history of calls on one TriangleDelaunayGenerator the triangulator is called at most once; every later call returns the mesh of the first one. Hence asking for the constrained triangulation after the conforming one (or with restricted segments after one without) returns the first result, against the documentation.", "quantifier": "all histories of calls", "why_tests_cant": "histories", "anchors": ["delynoi/src/voronoi/TriangleDelaunayGenerator.cpp"]}
{"id": "C52", "title": "The Delaunay mesh is index-consistent when Triangle's points are distinct", "statement": "If the triangulator's points are pairwise different (tolerance-separated) the mesh has the same points in the same order and the same triangles, and triangles with repeated vertices throw. If two of them coincide the polygon indices refer to the deduplicated list while geometry, point map and edge map use the original list, so the mesh is inconsistent.", "quantifier": "all triangulator outputs", "why_tests_cant": "needs near-coincident output points", "anchors": ["delynoi/include/delynoi/voronoi/TriangleDelaunayGenerator.h: initializeMesh"]}
{"id": "C53", "title": "One Voronoi cell per Delaunay vertex with valid, linked edges", "statement": "When the construction completes, the Voronoi mesh has exactly one cell per vertex used by a Delaunay triangle, in the order of first use; every cell vertex index is within the mesh points; cell vertex lists have no repetition; every edge registered for a cell joins two vertices of that cell; the mesh points extend the circumcenter list without changing it.", "quantifier": "all Delaunay inputs", "why_tests_cant": "all sizes", "anchors": ["delynoi/src/voronoi/DelaunayToVoronoi.cpp"]}
{"id": "C54", "title": "The walk around an interior vertex terminates and visits its triangles in rotation order", "statement": "For every triangulation in which the triangles around a vertex form a closed fan, the cell construction for that vertex terminates after visiting each triangle of the fan exactly once, in rotation order, and the cell's vertices are the circumcenters of these triangles in that order (repetitions removed).", "quantifier": "all fans of any size", "why_tests_cant": "termination of a pointer-chasing loop on all inputs", "anchors": ["delynoi/src/voronoi/DelaunayToVoronoi.cpp", "delynoi/src/models/polygon/Triangle.cpp: nextEdge"]}
{"id": "C55", "title": "A printed mesh cannot be read back", "statement": "Expectation: createFromFile reads what printInFile wrote. Violated: the printed file has an edge section that the reader takes for the polygon section. Reading a file made of a point section and a polygon section does reconstruct the points, polygons and edge neighbours when the points are distinct.", "quantifier": "all meshes", "why_tests_cant": "all mesh sizes", "anchors": ["delynoi/include/delynoi/models/Mesh.h: printInStream, createFromStream"]}
{"id": "C56", "title": "Indices are printed through double formatting", "statement": "Vertex indices below 1000000 are printed so that reading them back gives the same index; from 1000000 on they are printed in exponent notation with six digits and read back as a different index; coordinates are printed with six significant digits whatever the configured precision.", "quantifier": "all indices", "why_tests_cant": "large meshes only", "anchors": ["lib/utilities/include/utilities/utilities.h: toString", "delynoi/src/models/polygon/Polygon.cpp: getString", "delynoi/src/models/basic/IndexSegment.cpp: getString", "delynoi/src/models/basic/Point.cpp: getString"]}
{"id": "C57", "title": "Copies of a Mesh share their neighbour maps", "statement": "Expectation: changing a copy leaves the original alone. Points and polygons of a copy are independent, but edge and point maps are shared: reading a file into a copy changes the edges of the original.", "quantifier": "all meshes and all later operations", "why_tests_cant": "aliasing across histories", "anchors": ["delynoi/include/delynoi/models/Mesh.h: Mesh(const Mesh&), createFromStream"]}
{"id": "C58", "title": "Angles", "statement": "cartesianAngle is in (0,360] and its cosine and sine give the direction of the segment (a segment pointing right has angle 360, not 0); radian and degrees are mutually inverse modulo a full turn; For |a| < 360*2^31 Angle(a) is congruent to a modulo 180 and in [0,180) for a >= 0, but for negative a that is not a multiple of 360 it is below -180, against its documentation; from |a| >= 360*(2^31+1) on the conversion to int is undefined behaviour. operator< puts one angle before another exactly when it is smaller by at least the tolerance, which is not a strict weak order.", "quantifier": "all angles and segments", "why_tests_cant": "all real inputs", "anchors": ["lib/utilities/src/utilities.cpp: radian, degrees", "delynoi/src/models/basic/Segment.cpp: cartesianAngle", "delynoi/include/delynoi/models/basic/Angle.h"]}
{"id": "C59", "title": "Arc discretisation", "statement": "generateArcPoints returns steps+1 points (steps = discretisation grade > 0), all at distance |radius| from the centre, the first at initAngle and the last at endAngle.", "quantifier": "all arcs, all positive grades", "why_tests_cant": "all inputs", "anchors": ["delynoi/src/utilities/delynoi_utilities.cpp: generateArcPoints"]}
{"id": "C60", "title": "Bounding boxes are normalised", "statement": "For every pair of opposite corners in any order: width and height are non-negative and equal xMax-xMin, yMax-yMin; contains is exactly the four coordinate inequalities; getSegments appends four segments forming a closed rectangle with these extremes; equality is symmetric in the two corners.", "quantifier": "all boxes", "why_tests_cant": "all inputs", "anchors": ["delynoi/src/models/polygon/BoundingBox.cpp"]}
{"id": "C61", "title": "Segment length is a metric and midpoints are equidistant", "statement": "length is non-negative, symmetric, zero exactly for coinciding end points and satisfies the triangle inequality; middlePoint is on the segment and at half the length from both ends; normalize of a non-zero vector has norm 1; orderCCW keeps the end points and makes isCCW true whenever the reference point is not collinear.", "quantifier": "all points", "why_tests_cant": "all real inputs", "anchors": ["delynoi/src/models/basic/Segment.cpp: length", "delynoi/src/models/basic/IndexSegment.cpp: middlePoint, orderCCW, isCCW", "lib/utilities/src/utilities.cpp: normalize"]}
{"id": "C62", "title": "splitBySpaces yields exactly the non-blank fields", "statement": "For every line the fields returned contain no white space, are non-empty, appear in order, and joining fields that contain no white space with any non-empty white space between them and splitting again gives the same fields.", "quantifier": "all strings", "why_tests_cant": "all strings", "anchors": ["lib/utilities/src/utilities.cpp: split, splitBySpaces"]}
{"id": "C63", "title": "getConformingDelaunayTriangulation returns a dangling reference", "statement": "Expectation: the returned mesh can be used. Violated: for every generator the reference designates a local object destroyed at return, so any use is undefined behaviour, whereas the two getConstrained overloads return by value.", "quantifier": "all generators and histories", "why_tests_cant": "undefined behaviour may appear to work in a test", "anchors": ["delynoi/src/voronoi/TriangleDelaunayGenerator.cpp: getConformingDelaunayTriangulation"]}
{"id": "C64", "title": "ClipperWrapper::polyIntersection computes a difference", "statement": "Documented contract: intersection of two polygons. Violated: for every input it asks the clipping library for the difference parent minus child with the same truncation as Region::addHole.", "quantifier": "all polygons, scales, clipping libraries", "why_tests_cant": "all inputs", "anchors": ["delynoi/src/models/hole/clipper/ClipperWrapper.cpp: polyIntersection"]}
{"id": "C65", "title": "The Voronoi construction completes on every manifold triangulation and its cells are the dual cells", "statement": "For every triangulation in which the triangles at each vertex form a closed fan (inner vertex) or a sector bounded by the two marked boundary edges (boundary vertex), the construction terminates without undefined behaviour; inner cells are the circumcenters in rotation order; boundary cells are the middle of one boundary edge, the circumcenters in order, the middle of the other boundary edge, and the vertex itself unless it is collinear with the ends of that chain; the edge map holds for each segment the first and the latest cell that registered it.", "quantifier": "all triangulations with manifold vertices, any size and order of triangles", "why_tests_cant": "totality and shape of all cells on all meshes", "anchors": ["delynoi/src/voronoi/DelaunayToVoronoi.cpp"]}
{"id": "C66", "title": "Fixed-precision formatting", "statement": "toStringWithPrecision prints the sign of the double followed by a decimal literal with exactly the requested number of decimals, whose value is the double rounded to that many decimals.", "quantifier": "all finite doubles, all non-negative precisions", "why_tests_cant": "all doubles", "anchors": ["lib/utilities/src/utilities.cpp: toStringWithPrecision"]}
{"id": "C67", "title": "UniqueList queries agree with the history", "statement": "After any histories of insertions and removals on two unique lists: hasCommon is true exactly when the two contain equivalent elements; indexOf answers -1 exactly for absent elements; pushing a present element changes nothing and returns the index indexOf gives, and the element there is equivalent; == holds exactly when the two sequences are element-wise equivalent in insertion order (so it is not set equality); size and [] agree with the sequence.", "quantifier": "all element types with a strict weak order, all histories, all elements", "why_tests_cant": "unbounded histories and two containers at once", "anchors": ["lib/utilities/include/utilities/UniqueList.h: hasCommon, operator==, push_back, size, operator[]", "lib/utilities/include/utilities/utilities.h: indexOf"]}
{"id": "C68", "title": "Containment, collinearity and equality of segments", "statement": "isContained and contains(IndexSegment) are true exactly when every point of the inner segment is within tolerance of the outer one; collinear(segment, segment) is true exactly when every point of the second segment is within tolerance of the line of the first, and is not symmetric for any positive tolerance; PointSegment == is true exactly when the ends coincide within tolerance in one of the two orders, is symmetric, reflexive and blind to direction, and is not transitive.", "quantifier": "all segments, all points on them, all positive tolerances", "why_tests_cant": "quantifies over every point of a segment", "anchors": ["delynoi/src/models/basic/IndexSegment.cpp: contains, isContained", "delynoi/src/utilities/geometryFunctions.cpp: collinear", "delynoi/src/models/basic/PointSegment.cpp: operator=="]}
{"id": "C69", "title": "sign and Pair", "statement": "sign(int) is the sign; sign(double) times the absolute value is the value, with zero only for zeros, and NaN has sign 0; Pair < is lexicographic and a strict weak order on pairs of finite doubles whose equivalence is ==; on NaN the two disagree; the dot product, scaling and sum of pairs with integer fields up to 2^25 are exact.", "quantifier": "all ints, all doubles, all pairs of finite doubles", "why_tests_cant": "all doubles", "anchors": ["lib/utilities/include/utilities/utilities.h: sign", "lib/utilities/include/utilities/Pair.h"]}
{"id": "C70", "title": "A printed region is a seed file", "statement": "Printing a region and reading the text with addSeedsFromFile adds the outline, hole and seed points of the printed region and keeps exactly the seeds in the reading region's domain; coordinates with at most six digits survive unchanged. If the file announces more points than it has lines, the last point is repeated for every missing line, or, when the file ends with a newline, the read is undefined behaviour.", "quantifier": "all regions built by the API, all files announcing too many points", "why_tests_cant": "all regions and counts", "anchors": ["delynoi/src/models/Region.cpp: printInFile, addSeedsFromFile", "delynoi/src/utilities/delynoi_utilities.cpp"]}
{"id": "C71", "title": "DelaunayTriangulationGenerator hands the polygon to the triangulator and returns its triangles", "statement": "For every polygon over points that are pairwise apart: a self-crossing outline throws; otherwise the triangulator receives exactly the points, the polygon edges by their original indices and no holes, and every (non-flat) triangle it reports is returned, in order, by the original indices.", "quantifier": "all polygons, all points, all triangulators", "why_tests_cant": "quantifies over the external triangulator", "anchors": ["delynoi/src/triangulation/DelaunayTriangulationGenerator.cpp"]}
{"id": "C72", "title": "Noise wrappers add a draw or its opposite", "statement": "Over any sequence of calls on any functor, the i-th value differs from the unperturbed one by the i-th draw if the i-th integer drawn is odd and by its opposite otherwise; so the noise is bounded by max(|min|, |max|). The documented range [min, max] is violated.", "quantifier": "all functors, all sequences of arguments and draws", "why_tests_cant": "random", "anchors": ["delynoi/src/models/generator/noise/RandomDoubleNoise.cpp", "delynoi/src/models/generator/noise/RandomIntegerNoise.cpp"]}
{"id": "C73", "title": "Sine and cosine functions", "statement": "Sine computes amplitude * sin(pi * frequency * x + phase in degrees); cosine is sine with the phase advanced by 90; both are bounded by the amplitude; the period is 2/frequency and half a period negates. The documented form amplitude * sin(frequency * x + phase) is violated.", "quantifier": "all real parameters and arguments", "why_tests_cant": "all reals", "anchors": ["delynoi/src/models/generator/functions/FunctorClasses.cpp: Sine, Cosine"]}
{"id": "C74", "title": "Areas, orientation and convexity are exact on doubles with grid coordinates", "statement": "For IEEE doubles whose coordinates are integer multiples, up to 2^20, of one power of two 2^e (-200 <= e <= 200), and at most 1024 vertices: geometry area, signedArea and getArea return exactly the shoelace area, isClockwise decides its sign, fixCCW reverses exactly the clockwise outlines and afterwards getArea is the absolute area, and isConvex is the exact first-turn test. No rounding happens anywhere.", "quantifier": "all exponents e, all polygons with at most 1024 grid vertices (any number for isConvex)", "why_tests_cant": "infinitely many polygons over 2^40 points per exponent; a test samples a few and cannot exclude rounding in the intermediate products", "anchors": ["delynoi/src/utilities/geometryFunctions.cpp:29-50", "delynoi/src/models/polygon/Polygon.cpp: getArea, signedArea, isClockwise, fixCCW, isConvex"]}
{"id": "C75", "title": "Hull and diameter on doubles with grid coordinates", "statement": "On doubles with grid coordinates convexHull returns the true upper and lower hull chains of the points (every strictly extreme point of the upper or lower side is in its chain), and getDiameter returns the double nearest to the true largest vertex distance, and keeps it.", "quantifier": "all exponents, all finite sets of grid points, all polygons with at least two vertices", "why_tests_cant": "all point configurations; rounding in the orientation tests or the square root could break any of them", "anchors": ["delynoi/src/utilities/convexHull.cpp", "delynoi/src/models/polygon/Polygon.cpp: getDiameter, calculateDiameter"]}
{"id": "C76", "title": "containsPoint on doubles with grid coordinates", "statement": "On doubles with grid coordinates and no near-duplicate consecutive vertices, containsPoint answers true exactly when the query point is inside by the even-odd rule or within tolerance of the border, although the crossing abscissa is computed with a rounded division; every point on the border is contained; for strictly convex polygons interior points are contained and points beyond an edge are contained only near the border.", "quantifier": "all exponents, positive tolerances, polygons and query points on the grid", "why_tests_cant": "a rounding error could flip the crossing test for some of infinitely many configurations", "anchors": ["delynoi/src/models/polygon/Polygon.cpp: containsPoint", "delynoi/src/models/basic/Segment.cpp: contains"]}
{"id": "C77", "title": "Ear triangulation on doubles with grid coordinates", "statement": "On doubles with grid coordinates (at most 1024 vertices) EarTriangulationGenerator terminates, every triangle has three corners of the polygon (different if the vertices are), the computed areas of the triangles and of the remaining outline are finite and add up exactly to the polygon's computed area, and there are at most n-2 triangles, n-2 exactly when it completes.", "quantifier": "all exponents, positive tolerances, polygons with at most 1024 grid vertices", "why_tests_cant": "termination and exact area conservation over all polygons", "anchors": ["delynoi/src/triangulation/EarTriangulationGenerator.cpp"]}
{"id": "C78", "title": "Segment intersection on doubles: sound, complete and accurate", "statement": "For segments with grid coordinates and a tolerance between 2^-50 and 1/4: parallel segments are never reported and leave the output argument alone; segments with a common point are always reported, with a point whose coordinates are within 2^(e-29) of the true one; a reported intersection belongs to non-parallel segments, lies within 2^(e-29) of the crossing of their lines, and the crossing is on both segments prolonged by at most twice the tolerance times their length. The same for intersectionInfinity, whose second segment is a line.", "quantifier": "all exponents, grid segments, tolerances and previous values of the output argument", "why_tests_cant": "rounded quotients and products for infinitely many segment pairs", "anchors": ["delynoi/src/models/basic/Segment.cpp:48-96"]}
{"id": "C79", "title": "isSelfIntersecting and mutate on doubles", "statement": "On doubles with grid coordinates: an outline in which two non-neighbouring, non-parallel edges have a common point is always found self-intersecting and mutate throws; if isSelfIntersecting is true such edges cross after prolonging them by at most twice the tolerance; when the coordinates are at most 2^m grid units and 2*tolerance < 2^-(2m+3) (for the default 1e-5: up to 2^6) the answer is exact, and mutate succeeds on every outline without such a crossing.", "quantifier": "all exponents, tolerances between 2^-50 and 1/4, all outlines on the grid", "why_tests_cant": "all outlines; false positives and negatives come from rounded quotients", "anchors": ["delynoi/src/models/polygon/Polygon.cpp:291-311", "delynoi/src/models/Region.cpp: mutate"]}
{"id": "C80", "title": "Point order and unique point lists are exact on doubles with grid coordinates", "statement": "If the tolerance does not exceed the grid spacing, operator< on points is the lexicographic order and operator== equality of the coordinates; a UniqueList<Point> after any history of insertions and removals holds no two points with equal coordinates, contains answers exactly, and push_back returns the index of a point with exactly these coordinates.", "quantifier": "all exponents, tolerances up to the spacing, all histories over grid points", "why_tests_cant": "all histories; the tolerance-based comparison is not an order on arbitrary points (C05)", "anchors": ["delynoi/src/models/basic/Point.cpp: operator<, operator==", "lib/utilities/include/utilities/UniqueList.h"]}
{"id": "C81", "title": "Point order, unique lists and point maps work on doubles that are clearly close or clearly apart", "statement": "On any set of points of doubles in which every two coordinates differ by less than half the tolerance or by at least the tolerance, the rounded comparisons answer as in exact arithmetic: operator< is a strict weak order, operator== and order-equivalence both mean that the points coincide within the tolerance; a UniqueList<Point> after any history holds the first representative of each cluster, no two coinciding, and contains answers by coincidence; a PointMap after any history of insertions gives for each point exactly the neighbours inserted under points coinciding with it. Every grid with a spacing of at least the tolerance is such a set.", "quantifier": "all tolerances from 2^-1000, all such sets of finite points up to 2^1000, all histories", "why_tests_cant": "all histories and all doubles; rounding errors in the differences are not sampled", "anchors": ["delynoi/src/models/basic/Point.cpp: operator<, operator==", "lib/utilities/include/utilities/UniqueList.h", "delynoi/src/models/neighbourhood/PointMap.cpp"]}
{"id": "C82", "title": "The planar graph is right on doubles", "statement": "For a region built by the API, seeds and restricted segments whose points (as doubles) are clearly close or clearly apart: the points handed to the triangulator are pairwise apart, come from seeds and region points and represent all of them; the segments are the edges of the outline (in order or reversed) and of every hole, by indices of coinciding points; each restricted segment has the indices of points coinciding with its ends or -1; the hole markers are the hole centres.", "quantifier": "all regions, seeds, restricted segments and tolerances of this kind", "why_tests_cant": "all histories of region calls and arbitrary many points", "anchors": ["delynoi/src/voronoi/TriangleDelaunayGenerator.cpp: callTriangle", "delynoi/src/models/Region.cpp: getRegionPoints"]}
{"id": "C83", "title": "The circumcenter of a triangle of doubles is the correctly rounded one", "statement": "For corners whose coordinates are integer multiples (up to 2^16) of one power of two, not on a line, both coordinates of the computed circumcenter are the doubles nearest to those of the unique point equidistant from the corners; on grids up to 2^20 it is finite exactly when the corners are not on a line.", "quantifier": "all exponents from -200 to 200 and all such triangles", "why_tests_cant": "error of a quotient of cubic expressions over all inputs", "anchors": ["delynoi/src/models/polygon/Triangle.cpp: calculateCircumcenter"]}
{"id": "C84", "title": "Reading the triangulator's answer and building the mesh work on doubles", "statement": "An answer with grid coordinates and without flat triangles is always read; if its points are pairwise apart the mesh (polygons or triangles) has the answer's points in order, the triangles' corner indices, the segment map of the generator, and the point map gives for each point exactly the triangles around it; if points coincide the corner indices refer to the first representative, and a triangle with coinciding corners makes the construction throw.", "quantifier": "all answers of the triangulator, all usable tolerances", "why_tests_cant": "all answers, unbounded size", "anchors": ["delynoi/src/voronoi/TriangleDelaunayGenerator.cpp: callTriangle", "delynoi/include/delynoi/voronoi/structures/DelaunayInfo.h", "delynoi/include/delynoi/voronoi/TriangleDelaunayGenerator.h: initializeMesh"]}
{"id": "C85", "title": "The Voronoi cell of an inner point is its Voronoi region", "statement": "If the triangulation is Delaunay (counterclockwise triangles with empty circumscribed circles), the cell built for a site whose triangles close up around it is the Voronoi region of the site: a point is in the convex hull of the circumcenters of its triangles iff no other site is nearer, and the vertices of the cell are these circumcenters up to the tolerance - exactly, if circumcenters that coincide within the tolerance are equal.", "quantifier": "all Delaunay outputs, all sites with a closed fan, all points of the plane", "why_tests_cant": "regions are infinite point sets and the statement quantifies over all triangulations", "anchors": ["delynoi/src/voronoi/DelaunayToVoronoi.cpp"]}
{"id": "C86", "title": "The Voronoi cell of a border point is its region cut by the corner", "statement": "If the triangulation is Delaunay, the cell of a site with an open fan has as vertices (up to the tolerance) the circumcenters of its triangles, the middles of its two outer edges and the site itself, the site being left out only when it is within the tolerance of the line through the chain's ends; the convex hull of these points is contained in the Voronoi region when the outer edges have empty diametral circles, and contains the part of the region inside the corner when the corner is convex or flat.", "quantifier": "all Delaunay outputs, all sites with an open fan, all points of the plane", "why_tests_cant": "regions are infinite point sets and the statement quantifies over all triangulations", "anchors": ["delynoi/src/voronoi/DelaunayToVoronoi.cpp"]}
{"id": "C87", "title": "Voronoi cells stay inside the triangulated domain", "statement": "Refuted in general: a Delaunay triangulation of a rectangle with one inner point gives a cell with a vertex outside the rectangle, because cells are not clipped. If no triangle has an obtuse angle, every cell vertex coincides with a point of a triangle around the site, the middle of an edge at the site, or the site.", "quantifier": "all triangulations, all cells", "why_tests_cant": "all triangulations, unbounded size", "anchors": ["delynoi/src/voronoi/DelaunayToVoronoi.cpp"]}
{"id": "C88", "title": "Voronoi edges are dual to the inner edges of the triangulation", "statement": "For any two triangles sharing exactly the edge vw, the segment between their circumcenters has as neighbouring cells in the Voronoi mesh exactly the cells of v and w (in the order of the cells), provided the circumcenters, the middles of the boundary edges of other triangles and the boundary sites are told apart by the point order; over the reals this holds when they are more than twice the tolerance apart.", "quantifier": "all number systems, all triangulations with closed or open fans, all pairs of neighbouring triangles", "why_tests_cant": "all triangulations, unbounded size", "anchors": ["delynoi/src/voronoi/DelaunayToVoronoi.cpp", "delynoi/src/models/neighbourhood/SegmentMap.cpp"]}
{"id": "C89", "title": "Debug files say what the structures hold", "statement": "SegmentMap::printInFile after any history of calls, for any iteration order: if a lookup inserted an entry whose first neighbour was never set, printing reads an uninitialised value; otherwise (numbers of at most six digits) the file has one line per entry with the four numbers of the segment and its neighbours, and conversely every entry has a line. PointMap::printInFile: one line per point in map order with its coordinates and all its neighbours. writeTriangleInputFile, given the point list and indices of callTriangle, writes a .poly file with exactly the points, outline and hole segments and hole markers handed to Triangle (restricted segments are left out).", "quantifier": "all histories, iteration orders, regions, seeds and number formats without blanks", "why_tests_cant": "all histories; iteration orders of unordered_map cannot be enumerated", "anchors": ["delynoi/src/models/neighbourhood/SegmentMap.cpp: printInFile", "delynoi/src/models/neighbourhood/PointMap.cpp: printInFile", "delynoi/src/voronoi/TriangleDelaunayGenerator.cpp: writeTriangleInputFile", "delynoi/src/models/neighbourhood/NeighboursBySegment.cpp: getString"]}
{"id": "C90", "title": "Triangles built with a vector of circumcenters own consecutive entries", "statement": "Building triangles one after the other with the constructor that takes a vector of circumcenters gives the k-th one the index (old size + k) of its own circumcenter, appends exactly one circumcenter per triangle (equal ones are not merged) and leaves earlier entries alone; a triangle that was built is never null.", "quantifier": "all index lists and point vectors", "why_tests_cant": "all sizes", "anchors": ["delynoi/src/models/polygon/Triangle.cpp"]}
{"id": "C91", "title": "Voronoi cells are counterclockwise, inner ones strictly convex", "statement": "No cell of a Voronoi diagram is clockwise. When the triangulation is Delaunay, the circumcenters the tolerance identifies are equal and a shared circumcenter is stored once, the cell of every site not on the boundary is a strictly convex counterclockwise polygon without edges shorter than the tolerance, whatever the order in which its triangles were met and however many of them share a circumcenter.", "quantifier": "all triangulations with every site surrounded by a fan, all tolerances", "why_tests_cant": "all sizes and shapes of fans, including cocircular sites", "anchors": ["delynoi/src/voronoi/DelaunayToVoronoi.cpp", "delynoi/src/models/polygon/Polygon.cpp: fixCCW"]}
{"id": "C92", "title": "containsPoint on an inner Voronoi cell answers nearest-site queries", "statement": "Under the hypotheses of C91 the cell of a site not on the boundary contains every point strictly nearer to that site than to all others; for a point that is nearer to some other site it answers true exactly when the point is within tolerance of the cell's border.", "quantifier": "all Delaunay triangulations, all query points", "why_tests_cant": "all points of the plane", "anchors": ["delynoi/src/voronoi/DelaunayToVoronoi.cpp", "delynoi/src/models/polygon/Polygon.cpp: containsPoint"]}
{"id": "C93", "title": "Voronoi cells at convex corners of the border are convex and are the region cut at the border", "statement": "For a Delaunay triangulation whose cell vertices are told apart by the tolerance, the cell of a boundary site is a strictly convex counterclockwise polygon without edges shorter than the tolerance, and it is exactly the part of the Voronoi region inside the corner, provided the two boundary edges at the site have empty diametral circles, the corner is convex or straight (straight exactly, or clearly bent) and all sites lie inside it. Without the empty circles the cell can cross itself: a rectangle with one inner site has such a corner cell.", "quantifier": "all triangulations with every site surrounded by a fan, all boundary sites, all points of the plane", "why_tests_cant": "all shapes of fans; the two cases of the collinearity test and both walking directions", "anchors": ["delynoi/src/voronoi/DelaunayToVoronoi.cpp", "delynoi/src/models/polygon/Polygon.cpp: fixCCW", "delynoi/src/utilities/geometryFunctions.cpp: collinear"]}
{"id": "C94", "title": "containsPoint on a Voronoi cell at the border answers nearest-site queries", "statement": "Under the hypotheses of C93 the cell of a boundary site contains every point strictly inside its corner and strictly nearer to it than to all other sites; for a point outside the corner or nearer to some other site it answers true exactly when the point is within tolerance of the cell's border.", "quantifier": "all Delaunay triangulations, all boundary sites, all query points", "why_tests_cant": "all points of the plane", "anchors": ["delynoi/src/voronoi/DelaunayToVoronoi.cpp", "delynoi/src/models/polygon/Polygon.cpp: containsPoint"]}
{"id": "C95", "title": "The point map of a Voronoi diagram lists at every vertex the cells that use it", "statement": "For every triangulation the diagram is built from, the cells the point map of the Voronoi mesh lists at the coordinates of a stored vertex are exactly the cells whose index list contains that vertex, on reals and on doubles, when the tolerance is transitive on the points the cells are built from. The list is not a set: a cell is registered once for each of its edges that meet the vertex, so the same number occurs twice or more.", "quantifier": "all triangulations, all vertices of the diagram, all cells", "why_tests_cant": "all sizes and orders of triangles", "anchors": ["delynoi/src/voronoi/DelaunayToVoronoi.cpp", "delynoi/src/models/neighbourhood/PointMap.cpp", "delynoi/include/delynoi/models/Mesh.h: getPointMap"]}
{"id": "C96", "title": "Histories of a region", "statement": "After every sequence of seeding, reading seeds, generating seeds, clearing seeds, adding and clearing holes, mutating and copying, outline, holes and seeds are those a user expects: seeding replaces the seeds by the given points in the domain (outline minus holes, up to tolerance), reading and generating keep old and new seeds that are in the domain of that moment, clearing seeds or holes leaves everything else, adding a hole appends it, replaces the outline or (when it throws) changes nothing, mutation replaces the outline only, and a copy has the same outline and holes but no seeds. No call but the generation of points can fail.", "quantifier": "all sequences of calls of any length, all regions, holes, point lists and generators", "why_tests_cant": "unboundedly many call sequences", "anchors": ["delynoi/src/models/Region.cpp"]}
{"id": "C97", "title": "The Voronoi generator, end to end", "statement": "From seeds and region to both meshes: the generator hands Triangle a planar straight line graph in which every seed and every region vertex is represented, with the conforming Delaunay switches; whenever Triangle answers with a Delaunay triangulation whose points and circumcenters the tolerance tells apart, generation succeeds, the triangulation mesh has exactly Triangle's points and triangles, and the cell of every site not on the boundary is its Voronoi region.", "quantifier": "all regions that can be constructed, all seed lists that the tolerance tells apart, all answers of Triangle", "why_tests_cant": "all sizes of seed lists and answers", "anchors": ["delynoi/src/voronoi/TriangleVoronoiGenerator.cpp", "delynoi/src/voronoi/DelaunayToVoronoi.cpp", "delynoi/src/voronoi/TriangleDelaunayGenerator.cpp"]}
{"id": "C98", "title": "Files: printing regions and reading seeds and meshes by name", "statement": "For every sequence of printing regions into named files of the home directory and reading seeds from them, by any number of regions, the directory behaves as a store: reading a name appends to the region those points of its last successful printing (outline, hole and seed points, as re-read from their text) that lie in the region's domain, and changes no other region; reading a name that was never written throws and changes nothing. Printing never fails: when the target cannot be opened for writing nothing happens and nothing is reported. A mesh printed to a file and created from it has one one-vertex polygon per edge (C55), and other files are untouched. When the environment variable HOME is not set every one of these calls is undefined behaviour.", "quantifier": "all sequences of calls of any length, all regions, names and contents", "why_tests_cant": "unboundedly many call sequences; the state of the file system and of the environment", "anchors": ["lib/utilities/src/utilities.cpp: getPath, openFile", "delynoi/src/models/Region.cpp: addSeedsFromFile, printInFile", "delynoi/include/delynoi/models/Mesh.h: createFromFile, printInFile"]}
{"id": "C99", "title": "Random functors: range of the draws and use by the generator", "statement": "Constructing the random integer functor from two doubles is defined exactly when their truncations towards zero are ordered ints; every draw is less than one away from the interval, not below the minimum if that is an integer or not positive, not above the maximum if that is an integer or not negative. Otherwise draws can lie outside the interval: between 0.5 and 0.75 only 0 is drawn. A generator with two random functors consumes exactly one draw of each per grid node, in order, and ignores the node, and appends the pairs of draws.", "quantifier": "all pairs of bounds, all outcomes of the random engine, all grids", "why_tests_cant": "all doubles and all random outcomes", "anchors": ["delynoi/src/models/generator/functions/RandomInteger.cpp", "delynoi/src/models/generator/functions/RandomDouble.cpp", "delynoi/src/models/generator/PointGenerator.cpp"]}
{"id": "C100", "title": "Inner Voronoi cells computed on doubles", "statement": "For sites on a dyadic grid (integers up to 2^16 times a power of two) that Triangle answers with a Delaunay triangulation of, reading the answer and building the diagram in double arithmetic succeed, and the cell of every site with triangles all around has vertices that agree within the tolerance, after rounding to the nearest doubles, with the vertices of the true Voronoi region of the site, and every true vertex is so represented. When the tolerance does not confuse different Voronoi vertices, the cell has exactly the true vertices in order, each coordinate rounded to the nearest double, and the true vertices form a strictly convex polygon whose hull is the region.", "quantifier": "all answers of Triangle with sites on a grid, all inner sites, all points of the plane", "why_tests_cant": "all doubles and all triangulations; the true region is a set of real points", "anchors": ["delynoi/src/voronoi/DelaunayToVoronoi.cpp", "delynoi/src/models/polygon/Triangle.cpp"]}
{"id": "C101", "title": "Border Voronoi cells computed on doubles", "statement": "For sites on a dyadic grid, when the tolerance tells the true vertices of all cells apart after rounding (Voronoi vertices, middles of boundary edges, sites), the cell of a boundary site is computed in double arithmetic with vertices that are the true points rounded to the nearest doubles; where both boundary edges have empty diametral circles and the corner is convex and either straight or not within four tolerances of straight, these true points form a strictly convex polygon that is exactly the Voronoi region cut by the two boundary edges.", "quantifier": "all answers of Triangle with sites on a grid, all boundary sites, all points of the plane", "why_tests_cant": "all doubles and all triangulations; the true region is a set of real points", "anchors": ["delynoi/src/voronoi/DelaunayToVoronoi.cpp", "delynoi/src/models/basic/IndexSegment.cpp: middlePoint", "delynoi/src/utilities/geometryFunctions.cpp"]}
{"id": "C102", "title": "Boxes, lengths and turns on doubles", "statement": "For every finite pair of corners up to 2^1000 the ends of a BoundingBox on doubles are the exact minima and maxima, width and height the exact differences rounded to the nearest double, and contains decides the exact closed box; Region::getBox of any finite outline contains all its vertices and its sides pass through vertices (unless a coordinate is beyond 2^63).  For points on a dyadic grid the length of a segment and the longest edge of a polygon are the correctly rounded distances, zero only for equal points and monotone in the true distance, the middle point is exact, and isCCW/orderCCW decide the true orientation.", "quantifier": "all finite doubles (boxes) and all grid points of all dyadic grids (lengths, middles, turns)", "why_tests_cant": "rounding affects single inputs out of 2^256; a test compares with a tolerance and hides a last-digit error", "anchors": ["delynoi/src/models/polygon/BoundingBox.cpp", "delynoi/src/models/Region.cpp: getBox", "delynoi/src/models/basic/Segment.cpp: length", "delynoi/src/models/basic/IndexSegment.cpp", "delynoi/src/models/polygon/Polygon.cpp: getMaxDistance"]}
{"id": "C103", "title": "Segment tests on doubles", "statement": "On doubles of a dyadic grid, for every finite positive tolerance: a point is contained in a segment exactly when it lies in the open box of the segment widened by the tolerance with area product below the tolerance; a segment is contained in another exactly when all its points are; two segments are collinear exactly when all points of the second pass the test against the first; two segments are equal exactly when their ends coincide in one of the two orders; containerEdge returns the first edge near the point, and (-1,-1) when there is none.", "quantifier": "all grids, all finite positive tolerances, all grid points and polygons", "why_tests_cant": "the equivalences range over all points of segments and over all doubles near the tolerance", "anchors": ["delynoi/src/models/basic/Segment.cpp", "delynoi/src/models/basic/PointSegment.cpp", "delynoi/src/models/basic/IndexSegment.cpp", "delynoi/src/models/polygon/Polygon.cpp: containerEdge, inEdges"]}
{"id": "C104", "title": "Regions, seeds and their histories on doubles", "statement": "On doubles of a dyadic grid, for a region made by any public calls whose edges are not shorter than the tolerance: containsPoint and inEdges decide the outline; a point is taken as a seed exactly when it is inside or near the outline and neither inside nor near a hole; addSeedPoints and addSeedsFromFile keep exactly those points, in order; generateSeedPoints with the constant rule keeps exactly the nodes of the rectangular grid over the box that are in the domain; and after any history of public calls outline, holes and seeds are those of an abstract plan, every seeding having kept exactly the points in the domain of that moment.", "quantifier": "all regions reachable by the public API, all histories of calls, all grid points", "why_tests_cant": "histories and inputs are unbounded, and the decision must be right for every double on the grid, not up to an error", "anchors": ["delynoi/src/models/Region.cpp", "delynoi/include/delynoi/models/hole/Hole.h: containsPoint", "delynoi/src/models/generator/PointGenerator.cpp"]}
{"id": "C105", "title": "Generated points on doubles", "statement": "On doubles, PointGenerator with the constant rule and at least two points per direction yields nX*nY points in row order, each within 2^(k-48) of the exact node of the rectangular grid when the box is within 2^k; if the corners lie on a dyadic grid that also contains the spacing, every node is exact.  The points need not stay inside the box: for the box from 0 to 7 the last of 26 columns lies outside.", "quantifier": "all finite boxes up to 2^900, all point numbers from 2 to 2^31", "why_tests_cant": "the bound quantifies over all boxes and counts; leaving the box happens for rare pairs of width and count", "anchors": ["delynoi/src/models/generator/PointGenerator.cpp", "delynoi/src/models/generator/functions/FunctorClasses.cpp"]}
{"id": "C106", "title": "Adding holes on doubles", "statement": "On doubles, addHole hands the clipping library exactly the coordinates times the scale rounded to the nearest double and cut to an integer; if the library answers one path, the new outline consists of the doubles nearest to its coordinates divided by the scale, holes and seeds are kept, and the call throws exactly when two edges cross; otherwise the hole is stored, or refused when its centre is not in the outline.  If a scaled coordinate is not an int (or not a number) the call is undefined behaviour.", "quantifier": "all regions, all holes, all answers of the clipping library, all scales", "why_tests_cant": "all doubles including infinities and NaN, all answers of an external library", "anchors": ["delynoi/src/models/Region.cpp: addHole", "delynoi/src/models/hole/clipper/ClipperWrapper.cpp"]}
{"id": "C107", "title": "The Voronoi generator on doubles, end to end", "statement": "On doubles, for a region made by any public calls and points that fall into clusters smaller than the tolerance: TriangleVoronoiGenerator hands Triangle a graph that represents every seed and every corner of the region, and if Triangle answers with a Delaunay triangulation of grid points, the constructor succeeds; its triangulation lists the answer unchanged; the inner cells have as vertices the doubles nearest to the vertices of the true Voronoi regions, and border cells the doubles nearest to the vertices of the true regions cut by the two border edges (Gabriel edges, corner not reflex).", "quantifier": "all regions reachable by the public API, all seeds, all Delaunay answers of Triangle on grid doubles, all vertex counts", "why_tests_cant": "the answer of Triangle and the region are arbitrary; a test compares with another floating-point computation and cannot see that every vertex is the correctly rounded one", "anchors": ["delynoi/src/voronoi/TriangleVoronoiGenerator.cpp", "delynoi/src/voronoi/TriangleDelaunayGenerator.cpp", "delynoi/src/voronoi/DelaunayToVoronoi.cpp"]}
{"id": "C108", "title": "Center triangulation on doubles", "statement": "On grid doubles and polygons with 3 to 1024 vertices: a polygon that turns both ways is refused with an exception and the point list is unchanged; a convex one yields one triangle per edge, in order, with the edge's two indices and the index of one appended point, the coordinates of which are the doubles nearest to the averages of the vertices; this rounded point lies strictly inside every edge line that has some vertex strictly inside, so all the triangles are counterclockwise.", "quantifier": "all index lists of 3 to 1024 vertices, all grid doubles of exponents -200 to 200", "why_tests_cant": "that rounding the average cannot push it over an edge is a statement about all doubles and all polygons", "anchors": ["delynoi/src/triangulation/CenterTriangulationGenerator.cpp"]}
{"id": "C109", "title": "The documented programs, from the domain to the files", "statement": "The program of the README and of test/SimpleSquareTestMain.cpp - build a domain with any calls, seed it, make the Voronoi mesh and the constrained triangulation, print both - succeeds on doubles whenever Triangle answers with triangulations of grid points, and leaves under the two names texts that list, line by line, the number of points and the points as operator<< prints them, the number of edges and every edge of the mesh exactly once, the number of cells and every cell with its vertices; for the triangulation these are Triangle's points, edges and triangles; the cells printed are the rounded true Voronoi regions.  All other files are unchanged.", "quantifier": "all domains, all histories of calls on the domain, all answers of Triangle, all file names, all iteration orders of the edge map", "why_tests_cant": "a test runs the program on a few domains and compares with stored output; edge order in the file is unspecified", "anchors": ["README.md", "test/SimpleSquareTestMain.cpp", "test/LShapeTestMain.cpp", "delynoi/include/delynoi/models/Mesh.h: printInFile"]}
{"id": "C110", "title": "The Voronoi cells tile a convex domain", "statement": "For a Delaunay triangulation of a convex domain (each border corner convex or flat, no site inside a circle around a border edge), every cell of the Voronoi mesh - inner, border and corner cells alike - is exactly the part of the domain that is nearest to its own site; together the cells cover the domain; no point inside one cell lies in another; and the areas that getArea computes for the cells add up to the total area of the triangles.", "quantifier": "all Delaunay outputs of convex domains with any number of points, all points of the plane, all cells", "why_tests_cant": "covering and not overlapping are statements about all points of the plane and about all pairs of cells; a test samples points or compares areas up to an error", "anchors": ["delynoi/src/voronoi/DelaunayToVoronoi.cpp", "delynoi/src/models/polygon/Polygon.cpp: getArea"]}
{"id": "C111", "title": "The Voronoi generator tiles a convex region", "statement": "For a region with a convex outline without holes and for any seed points, given a triangulation of the graph the generator builds that fills the outline (border sides strung along the outline, no site in the circle around a border side), TriangleVoronoiGenerator returns a mesh in which each cell is exactly the part of the region nearest to its own site, the cells cover the region, no point inside one cell lies in another, and the areas getArea computes add up to the area of the region's outline.", "quantifier": "all convex outlines with any number of corners, given in either direction, all seed lists, all triangulations of the stated kind, all points of the plane", "why_tests_cant": "a statement about every point of a continuous region for every outline and every seed list, and about the whole pipeline at once", "anchors": ["delynoi/include/delynoi/voronoi/TriangleVoronoiGenerator.h", "delynoi/src/voronoi/TriangleVoronoiGenerator.cpp", "delynoi/src/voronoi/TriangleDelaunayGenerator.cpp", "delynoi/src/voronoi/DelaunayToVoronoi.cpp"]}
{"id": "C112", "title": "The Voronoi cells of a region of any shape, with reflex corners and holes, do not overlap and their areas add up", "statement": "For a domain of any shape (convex, flat and reflex border corners, holes) whose triangulation is Delaunay with no site in the circle around a border side, every cell DelaunayToVoronoi builds is star-shaped seen from its own site, all its points are nearest to that site, no point inside one cell lies in another, and the areas getArea computes for the cells add up to the area of the triangles. For TriangleVoronoiGenerator on a region with holes the areas add up to the area of the outline minus the areas of the holes.", "quantifier": "all triangulations of the stated kind, all outlines, any number of holes of any shape, all seed lists, all points of the plane", "why_tests_cant": "a statement about every point of a continuous region for every outline, every set of holes and every seed list; reflex corners are where the site itself becomes a corner of its cell", "anchors": ["delynoi/src/voronoi/DelaunayToVoronoi.cpp", "delynoi/include/delynoi/voronoi/TriangleVoronoiGenerator.h", "delynoi/src/voronoi/TriangleVoronoiGenerator.cpp", "delynoi/src/models/polygon/Polygon.cpp: getArea"]}
{"id": "C113", "title": "The Voronoi cells of a region of any shape cover it and stay within it", "statement": "In a domain of any shape, with reflex corners and holes, every point of every triangle lies in a cell DelaunayToVoronoi builds, in the part seen from a site that is nearest to the point, and every point of a cell lies in a triangle. For TriangleVoronoiGenerator on a region with holes, every point inside the outline and in no hole (by the even-odd rule) lies in a cell whose site is nearest to it, and the outlines go around every point inside a cell at least once.", "quantifier": "all triangulations of the stated kind, all outlines and holes of any shape, all seed lists, all points of the plane", "why_tests_cant": "a gap between cells can be arbitrarily thin; the statement is about every point of a continuous region for every outline and seed list", "anchors": ["delynoi/src/voronoi/DelaunayToVoronoi.cpp", "delynoi/include/delynoi/voronoi/TriangleVoronoiGenerator.h", "delynoi/src/voronoi/TriangleVoronoiGenerator.cpp"]}
{"id": "C114", "title": "Polygon::containsPoint finds the Voronoi cell of a point", "statement": "For every point, the numbers of times the Voronoi cells go around it are not negative and add up to the number of times the triangles do. On the mesh of TriangleVoronoiGenerator, containsPoint answers for every cell, true exactly for points inside by the even-odd rule or within the tolerance of the border of the cell; the number of cells a point is inside of is odd exactly if the point is inside the region with holes, and it is exactly one where the outlines go around the point once and none where they do not.", "quantifier": "all triangulations of the stated kind, all outlines and holes of any shape, all seed lists, all query points", "why_tests_cant": "exactly one cell answering for each of infinitely many points, including points at the height of corners, where the crossing rule decides; tests sample a few points", "anchors": ["delynoi/src/voronoi/DelaunayToVoronoi.cpp", "delynoi/src/voronoi/TriangleVoronoiGenerator.cpp", "delynoi/src/models/polygon/Polygon.cpp: containsPoint"]}
{"id": "C115", "title": "The Voronoi cells tile every region whose outlines go around no point more than once", "statement": "If the outline of the domain, with its holes the other way round, goes around no point more than once - for instance a convex outline with convex holes inside - then on the mesh of TriangleVoronoiGenerator every point inside the region is inside exactly one Voronoi cell and exactly one Delaunay triangle, every point outside is inside none, the cell of a point is that of its nearest site, containsPoint answers accordingly up to the tolerance at borders, and the areas of the cells add up to the area of the outline minus those of the holes.", "quantifier": "all outlines and holes of this kind, convex or not, all seed lists, all answers of Triangle that fill the region with empty circles on border sides, all query points", "why_tests_cant": "exactly one cell for each of infinitely many points of infinitely many shapes; tests compare a few dumps", "anchors": ["delynoi/src/voronoi/TriangleVoronoiGenerator.cpp", "delynoi/src/voronoi/DelaunayToVoronoi.cpp", "delynoi/src/models/polygon/Polygon.cpp: containsPoint"]}
{"id": "C116", "title": "The constrained Delaunay mesh tiles the region", "statement": "If the outline of the domain, with its holes the other way round, goes around no point more than once, then the mesh of getConstrainedDelaunayTriangulation, with or without restricted segments, has triangles whose insides do not overlap; each has a positive getArea and together they have the area of the outline minus those of the holes; containsPoint finds every point inside the region in exactly one triangle and every point outside in none, up to the tolerance at borders.", "quantifier": "all outlines and holes of this kind, all seed lists and restricted segments, all answers of Triangle whose border is the outlines, all query points", "why_tests_cant": "sums of areas and point location over arbitrary triangulations of arbitrary regions; tests look at a few meshes", "anchors": ["delynoi/src/voronoi/TriangleDelaunayGenerator.cpp", "delynoi/src/models/polygon/Triangle.cpp", "delynoi/src/models/polygon/Polygon.cpp: containsPoint, getArea"]}
{"id": "C117", "title": "The constrained Delaunay mesh on doubles tiles the region", "statement": "On doubles: if the coordinates of Triangle's answer are multiples of a power of two within the range of the grid properties, and the outline of the domain with its holes the other way round goes around no point more than once, then the mesh of getConstrainedDelaunayTriangulation, with or without restricted segments, has triangles whose getArea is positive and whose exact sum is the exact area of the outline minus those of the holes, with no rounding; containsPoint finds every grid point inside the region in exactly one triangle and every grid point outside in none, up to the tolerance at borders. The mesh that the documented triangulation program prints is such a mesh.", "quantifier": "all outlines and holes of this kind, all seed lists and restricted segments, all answers of Triangle on the grid whose border is the outlines, all query points on the grid, all sequences of region calls before", "why_tests_cant": "rounding of areas and of point location over arbitrary triangulations; tests compare a few sums with a tolerance", "anchors": ["delynoi/src/voronoi/TriangleDelaunayGenerator.cpp", "delynoi/src/models/polygon/Triangle.cpp", "delynoi/src/models/polygon/Polygon.cpp: containsPoint, getArea"]}
{"id": "C118", "title": "The life of a Point object", "statement": "After any sequence of calls of setX, setY and setBoundary on a point built with either constructor, getX and getY answer the last coordinates set, isInBoundary answers whether setBoundary was ever called, and isValid answers true exactly if the point was built without coordinates, the opposite of its documentation. A difference of points is a new unmarked point; comparisons ignore the marks; squareNorm is the square of the distance to the origin.", "quantifier": "both constructors, all sequences of calls, all values", "why_tests_cant": "histories of any length; tests do not call isValid", "anchors": ["delynoi/src/models/basic/Point.cpp", "delynoi/include/delynoi/models/basic/Point.h"]}
{"id": "C119", "title": "Meshes of simple polygons with holes tile them", "statement": "A simple polygon - no corner twice, edges meeting only where one ends and the next begins - goes around every point inside it exactly once, in the direction of its signed area, and around every point outside not at all. For a simple outline with simple holes in it that do not meet, given in any direction, the points of the region are those inside the outline and in no hole, and the tiling properties hold without further conditions on the shape: every such point is in exactly one cell of the mesh of TriangleVoronoiGenerator, and in exactly one triangle of the constrained Delaunay mesh, over the reals and on doubles, and the areas add up to the area of the outline minus those of the holes; so does the mesh that the documented triangulation program prints.", "quantifier": "all simple polygons with any number of corners, all simple holes, all seed lists, all answers of Triangle of the stated kinds, all query points", "why_tests_cant": "that a simple polygon separates the plane into an inside and an outside is the Jordan curve theorem for polygons; tests use a few shapes", "anchors": ["delynoi/src/voronoi/TriangleVoronoiGenerator.cpp", "delynoi/src/voronoi/TriangleDelaunayGenerator.cpp", "delynoi/src/models/polygon/Polygon.cpp: containsPoint, getArea", "README.md"]}
{"id": "C120", "title": "The Voronoi mesh on doubles adds up to the region exactly, in spite of rounding", "statement": "The corners of Voronoi cells - Voronoi vertices and middles of edges - are in general not doubles and are rounded. Still, for Triangle's answers on the grid of the double properties that fill a simple region with holes, TriangleVoronoiGenerator and the documented program answer a mesh with one cell for each site, each storing the rounded corners of the true cell, such that the areas of the stored cells, signed by the direction of the true cell, add up exactly, in exact arithmetic, to the area of the outline minus those of the holes; the stored cells go together once around every point of the region and around no other point; so by the even-odd rule every point of the region is in an odd number of stored cells, and every other point in an even number: rounding opens no gaps.", "quantifier": "all simple outlines and holes, all sequences of region calls, all seed lists, all answers of Triangle on the grid that fill the region with empty circles on border sides, all points of the plane", "why_tests_cant": "gaps of the size of a rounding error between cells cannot be found by sampling points; sums of areas in tests have rounding errors of their own", "anchors": ["delynoi/src/voronoi/DelaunayToVoronoi.cpp", "delynoi/src/voronoi/TriangleVoronoiGenerator.cpp", "delynoi/include/delynoi/models/Mesh.h", "README.md"]}
{"id": "C121", "title": "callTriangle uses its memory correctly as long as there is enough", "statement": "If the allocator always finds a block, callTriangle writes the arrays of the input struct only within their bounds and completely, with exactly the planar graph of the seeds, the region, the restricted segments and the holes; it passes Triangle NULL in every field that Triangle allocates; it reads Triangle's arrays within their bounds only; and afterwards it gives back every block it or Triangle allocated exactly once and no other, also if the output struct shares the hole and region lists with the input, so that the allocated blocks are those before the call with their contents. If there is no memory, malloc's answer is not checked and the first write goes through NULL.", "quantifier": "all regions, seeds, restricted segments, allocators that answer with new blocks or with NULL for empty arrays, initial heaps, answers of Triangle and ways in which Triangle places them in memory, sizes below 2^30 (2^29 triangles)", "why_tests_cant": "double frees, leaks and accesses past the end of an array show up only under some allocators and for some sizes; tests run with one allocator", "anchors": ["delynoi/src/voronoi/TriangleDelaunayGenerator.cpp: callTriangle", "delynoi/include/delynoi/voronoi/lib/triangle.h"]}
{"id": "C122", "title": "Scripts of tests on several regions write the files they name, unless they test triangulations", "statement": "A sequence of statements on several regions (member calls, assignment of a new region, generateTest_Polygon, generateTest_Triangle, printInFile), as in the main function of AllTests.cpp: if it runs to its end, every region has gone through the statements that name it and no others; the file of a statement that no later statement overwrites holds the text of that statement's region, or of the Voronoi mesh of that region with its seeds at that moment; no other file changes. On doubles it runs to its end if every call is accepted and Triangle answers every test with a Delaunay triangulation. But a script with a triangulation test never runs to its end, and its behaviour is undefined if Triangle does its work: generateTest_Triangle copies from a reference to a local mesh.", "quantifier": "all numbers of regions, scripts, seeds, home directories and disks, orders of the edge map, answers of Triangle; for termination regions of doubles on a grid", "why_tests_cant": "the programs in test/ check nothing by themselves and nobody reads several dozens of printed meshes; a dangling reference often still points to intact memory", "anchors": ["test/AllTests.cpp", "delynoi/src/voronoi/TriangleDelaunayGenerator.cpp: getConformingDelaunayTriangulation", "delynoi/include/delynoi/models/Mesh.h: printInFile"]}
{"id": "C123", "title": "Circles, arcs and waves are right on doubles up to a stated error, for any accurate sin and cos", "statement": "On doubles, with the double M_PI and any functions sin and cos that are at most 2^-52 off and stay in [-1,1]: for discretization grades 1 to 360 a circle ends with ceil(360/d) points, d = 360/grade (int division), and point i is within (max|center| + 32|radius|) 2^-53 + 2^-1073, in each coordinate, of the exact point of the circle at d*i degrees; a CircularHole is a hole of these points with that center. An arc has grade+1 points, within a similar error of equally spaced exact points that include both ends. Sine and Cosine never exceed their amplitude and are within |a|(3 + A/4) 2^-53 + 2^-1075 of a sin(pi f x + p pi/180). Circles with a grade above 360 or below 0 never return, and grade 0 is undefined.", "quantifier": "all doubles up to 2^900 as center, radius and amplitude, all angles up to 2^29 (2^30 for waves), all grades, all sin and cos with that accuracy", "why_tests_cant": "tests compare a few points with a tolerance picked by hand; errors grow with the angle, and the endless loops need an unusual configuration", "anchors": ["delynoi/src/models/polygon/Circle.cpp: discretizeCircle", "delynoi/src/utilities/delynoi_utilities.cpp: generateArcPoints", "delynoi/src/models/hole/CircularHole.cpp", "delynoi/src/models/generator/functions/FunctorClasses.cpp: Sine, Cosine", "lib/utilities/src/utilities.cpp: radian"]}
{"id": "C124", "title": "Generators and meshes of a program share edge maps exactly along families", "statement": "In a program that makes, copies and assigns generators and meshes, asks generators for meshes, reads meshes from files and looks up neighbours, in any order: call family an object together with everything obtained from it. All meshes of a family show the same edges; an act on one family leaves every mesh of other families as it was; a look-up of an absent segment through one mesh adds that segment, with an uninitialised neighbour, to all meshes of the family; reading a file into a mesh changes the edges of the whole family but the points and polygons of that mesh only; the first call on a generator writes its edges over those of the family and later calls write nothing; the first mesh of a new generator is the one of its triangulation. Without copies, and with one mesh per generator, meshes are independent. Otherwise they are not: two meshes of one generator, or of a generator and its copy, change each other.", "quantifier": "all programs of such acts of any length, all regions, seeds, files and triangulators, for the reals and for doubles alike", "why_tests_cant": "tests hold one mesh at a time; the sharing shows only when two objects are alive and one is used in between", "anchors": ["delynoi/include/delynoi/models/Mesh.h: constructors, createFromStream, getNeighbours", "delynoi/src/voronoi/TriangleDelaunayGenerator.cpp: callTriangle, get*DelaunayTriangulation", "delynoi/include/delynoi/voronoi/TriangleDelaunayGenerator.h: initializeMesh"]}
{"id": "C125", "title": "Generators on functors of their own are independent; shared functors make them depend on each other and on the compiler", "statement": "A PointGenerator and a noise functor hold pointers to functors. In a program that makes functors, noise around them, generators on them and calls generate in any order: a generator whose pointers lead to different functors gives the points of generate with private functors, whatever the order of evaluation, continues where its functors were left, and leaves functors that it does not lead to as they were. Functors without state (constant, uniform, sine, cosine) can be shared freely. One displace_points functor used for both coordinates moves every point in x by delta/2, or every point in y, depending on the order in which the compiler evaluates the arguments of Point(lX->apply(x), lY->apply(y)), instead of every second one; two generators on one functor change each other's points.", "quantifier": "all programs of such calls of any length, all functors, boxes, grid sizes and orders of evaluation, over any numbers", "why_tests_cant": "tests build each generator with fresh functors, and one compiler shows one order of evaluation", "anchors": ["delynoi/src/models/generator/PointGenerator.cpp: result, generate, constructors", "delynoi/src/models/generator/noise/RandomDoubleNoise.cpp: apply", "delynoi/src/models/generator/noise/noise.cpp", "delynoi/src/models/generator/functions/functions.cpp"]}
{"id": "C126", "title": "What a polygon answers is determined by its calls: caches and hash survive changes of its list until certain calls", "statement": "For a Polygon made by any constructor and used by any sequence of getArea, getDiameter, getCentroid, fixCCW, mutate (whose exception may be caught), writes through the reference of getPoints() and copies: the index list is the one these calls leave; once getArea has answered something other than -1 it answers that, for every vector of points, until a mutate that succeeds or a fixCCW that reverses; before the first answer it answers what a new polygon with the current list answers; the diameter likewise, but a reversal does not drop it; every centroid is the origin. The polygon equals its copies and every new polygon on a permutation of its list as long as the list was not written or a mutate refused since the last construction, copy or mutation; afterwards it is compared by the old list. A default-constructed polygon cannot be asked for area or diameter, nor copied, without undefined behaviour until mutate succeeds (or, for the area, fixCCW reverses); every other polygon never has uninitialised caches. Hence a polygon can answer the area of a list it no longer has, and differ from its own copy.", "quantifier": "all constructors and all sequences of calls of any length with any vectors of points, over any numbers; witnesses on doubles", "why_tests_cant": "tests ask a freshly built polygon once; stale caches need histories, and reading an uninitialised double often looks like a number", "anchors": ["delynoi/src/models/polygon/Polygon.cpp: constructors, mutate, getArea, getDiameter, getCentroid, getPoints, operator==, fixCCW, calculateHash", "delynoi/include/delynoi/models/polygon/Polygon.h"]}
{"id": "C127", "title": "Turns, areas, orientation, circumcenters and Voronoi vertices are right on arbitrary doubles up to stated errors", "statement": "For any finite doubles with coordinates up to M (2^-200 <= M <= 2^200), on no grid, with u = 2^-53: the computed orientation of three points is within 45 u M^2 of the exact one, so its sign is right for triangles with more than half that area; the computed area of a polygon with n <= 2^20 vertices is within 64 n^2 u M^2 of the exact one; isClockwise and fixCCW are right for polygons with area more than 12 n^2 u M^2, and fixCCW then leaves a counterclockwise polygon; the circumcenter of a triangle A B C with twice its area o at least 2^-46 M^2 is computed without overflow or division by zero and each coordinate is within 128 u (M+|z|) M^2/o of the coordinate z of the unique point at equal distance from A, B and C; for a triangulation without thinner triangles, whose diagram points the tolerance does not confuse, the Voronoi diagram is built, each triangle has a point of the diagram within that error plus the tolerance of its exact circumcenter, and each cell of an inner point is the ring of these points in order. Without a bound on the area isClockwise is wrong: a counterclockwise triangle with coordinates in tenths is called clockwise.", "quantifier": "all finite doubles up to M for all M in that range, all polygons up to 2^20 vertices, all triangulations with fans around their points", "why_tests_cant": "tests compare a few decimals with a tolerance picked by hand; how thin a triangle may be before signs flip needs a bound for all inputs", "anchors": ["delynoi/src/utilities/geometryFunctions.cpp: area", "delynoi/src/utilities/delynoi_utilities.cpp: orientation", "delynoi/src/models/polygon/Polygon.cpp: isClockwise, fixCCW", "delynoi/src/models/polygon/Triangle.cpp: calculateCircumcenter", "delynoi/src/voronoi/DelaunayToVoronoi.cpp", "delynoi/src/voronoi/TriangleDelaunayGenerator.cpp: callTriangle"]}
{"id": "C128", "title": "Containment tests and seeding are right on arbitrary doubles up to a stated slack", "statement": "For any finite doubles with coordinates up to M (2^-200 <= M <= 2^200), on no grid, with u = 2^-53 and slack s = 128 u (M^2 + M): Segment::contains and Polygon::inEdges answer true for every point within the tolerance minus s of the segment or border, and only for points within the tolerance plus s of it; if s is below the tolerance and no side is shorter than it, containsPoint answers true for every point inside by the even-odd rule or within the tolerance minus s of the border, and only for points inside or within the tolerance plus s of it; points on the border are always contained; for a strictly convex counterclockwise polygon every point strictly to the left of all sides is contained, and a point to the right of one is contained only near the border; seeding a region with holes keeps every offered point that is in the domain by that margin and none that is out of it by that margin. For coordinates up to 2^20 and the default tolerance this fails: the exact middle of a side of a triangle is reported to be outside.", "quantifier": "all finite doubles up to M for all M in that range, all polygons, all regions made by the API, all lists of offered seeds, all tolerances above the slack", "why_tests_cant": "tests place points clearly inside or outside; which points near the border are misjudged by rounding needs a bound for all inputs", "anchors": ["delynoi/src/models/polygon/Polygon.cpp: containsPoint, inEdges, containerEdge", "delynoi/include/delynoi/models/basic/Segment.h: contains", "delynoi/include/delynoi/models/hole/Hole.h: containsPoint", "delynoi/src/models/Region.cpp: clean, addSeedPoints, containsPoint"]}
{"id": "C129", "title": "A constant grid over a rectangle of doubles keeps all its points, and the timing program reports true counts and writes each file once", "statement": "For any rectangle of finite doubles with coordinates up to 2^k (-100 <= k <= 60), sides at least the tolerance, and a tolerance above twice the slack of C128: generateSeedPoints with constant functors and nX, nY in 2..2^31 succeeds, keeps exactly nX*nY seeds, row by row, each within 2^(k-48) of the exact node, although rounding can put nodes outside the box (C105) and clean filters by containment. The program TimeSquareTestMain, for any list of numbers of points: when it ends normally, time_results.txt has one row per run with n squared and the measured time, triangle_i.txt holds the triangulation of run i (row by row when the indices are below a million), no other file changes, and paths that cannot be written keep their content; it ends normally when HOME is set, no n*n overflows int and every run yields a mesh, and is undefined without HOME; on doubles the reported n*n is the number of seeds of the domain, for every n from 2 on with n*n an int.", "quantifier": "all rectangles of doubles in that range, all grid sizes up to 2^31, all tolerances in the stated range; all lists of numbers of points, all disks, all clocks, all answers of Triangle, all number formats", "why_tests_cant": "tests seed a few squares and look at the output; that no point of any grid is lost to rounding, and that no run touches another run's file, needs a proof over all sizes and lists", "anchors": ["test/TimeSquareTestMain.cpp: main", "delynoi/src/models/Region.cpp: generateSeedPoints, clean", "delynoi/src/models/generator/PointGenerator.cpp: generate", "delynoi/include/delynoi/models/Mesh.h: printInFile"]}
{"id": "C130", "title": "A seed file of any layout is read line by line, and the program that reads one is the documented program on these points", "statement": "Every text is a list of lines in exactly one way. If its first line starts, after any white space, with the digits of n, then addSeedsFromFile reads exactly n points, the i-th from the first two words of line i, whatever white space surrounds them and whatever follows them; when the file has fewer lines, its last line (the empty one after a final line end included) stands for each missing one; if one of these lines has fewer than two words, or n does not fit an int, the call is undefined behaviour. The region then has its old seeds and the points read, in this order, without those outside its domain. The program ReadPointsFromFileTestMain behaves on such a file as the documented program (C109) whose seeds are these points, throws when the file is missing and is undefined without HOME or on such a malformed file.", "quantifier": "all texts whose first line starts with a number, all regions made by the API, all outlines, names and disks, all readings of numbers, all answers of Triangle", "why_tests_cant": "tests read one well-formed file; layouts, missing lines and announced counts form an infinite input space", "anchors": ["delynoi/src/models/Region.cpp: addSeedsFromFile", "lib/utilities/src/utilities.cpp: splitBySpaces, openFile", "test/ReadPointsFromFileTestMain.cpp: main"]}
{"id": "C131", "title": "Reading a mesh file depends only on its numbers, not on its layout", "statement": "Two mesh files that announce the same numbers of points and polygons, have the same first two words on the lines of the points and the same words after the first one on the lines of the polygons are read by Mesh::createFromFile/createFromStream alike: same mesh or same failure, from every mesh and start index, whatever white space, remarks after the numbers or lines after the data they have. If the words describe distinct points and polygons with non-negative written indices, the mesh read has exactly these points and polygons, and its edge map is that of their edges. The number of corners written on the line of a polygon is not looked at; that a wrong one is noticed is refuted.", "quantifier": "all pairs of texts with the same data, all numbers of points and polygons, all meshes and start indices, all polygon constructors and readings of numbers", "why_tests_cant": "tests read a handful of files written by the library itself; layouts form an infinite input space", "anchors": ["delynoi/include/delynoi/models/Mesh.h: createFromStream", "lib/utilities/src/utilities.cpp: splitBySpaces"]}
