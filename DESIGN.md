# Formal model of Delynoi in Rocq (Coq 8.16.1)

## Approach

* Every modelled C++ function is a total Gallina function (`theories/M*.v`), with a comment citing file and
  lines.  Outcomes are explicit (`Base.res`): `Ok v`, or an error that is one of `Throw` (C++ exception), `UB`
  (undefined behaviour: out-of-range `operator[]`, signed overflow, uninitialised read, dangling reference, double
  to int overflow), `NonFinite` (a division by zero that yields inf/NaN in C++; the model stops there), `Hang` and
  `Fuel` (the model ran out of fuel; a theorem about a loop either gives the fuel that is enough and the result
  for all larger fuels, or shows that every fuel runs out, i.e. that the C++ loop does not end).
* Numbers: geometric code is written once over a record `Num` of arithmetic operations and read at two instances:
  `RNum` (Coq's classical reals: rounding is not modelled) and `F64` (IEEE-754 binary64, round to nearest even,
  computed by the standard library's SpecFloat).  A theorem says in its statement which instance it is about, or
  quantifies over all of them.  The IEEE theorems are the comparison-only ones, the refutations that must hold of
  actual doubles, everything about text, and C74 onwards: the geometry on doubles whose coordinates are integer
  multiples of one power of two (`grid_point`), proved exact or with stated error bounds; C127 to C129 need no grid.
* External code is a parameter quantified in the theorem: Clipper's `Execute`, Triangle's `triangulate`, the random
  engines, hash bucket counts.  Nothing is assumed about them except where a hypothesis says so.
* `Spec.v` and `SpecNum.v` are the specifications: plain definitions of cyclic edges, shoelace sums, even-odd
  rule, hulls, association-list histories, decimal rounding and so on.  They import no model file.  `Bridge*.v`
  only read model values as specification values (a point as a pair of reals).
* `P*.v` hold the proofs.  `T_*.v` hold the property theorems and nothing else: each is closed by `exact` of a
  lemma, followed by `Print Assumptions`, with an `Example` beside it that shows a non-trivial case meeting the
  hypotheses.  `Samples*.v` hold the data of these examples.
* Expectations that the code violates: the property states what is true of the code for all inputs, and a
  `_refuted` theorem gives a concrete witness against the documented expectation.
* `seeded/LOG.jsonl`: one line per wrong program tried (an edit of a model definition), with the theorems that
  fail because of it: `broken_at` is the lemma (or the theorem) whose proof no longer goes through, and
  `theorems_failed` are the property theorems whose proofs depend on it.  The dependence is followed by names in the
  text of the proofs, so where two files use one name the list can contain a theorem too many.

## Trusted base

* Coq 8.16.1's kernel, including its `vm_compute` machine, and `coqc`'s parser and elaborator for reading the
  statements.  No plugin, no native compilation, no kernel check switched off.
* The axioms listed by `Print Assumptions`.  The project declares none.  Theorems that mention the reals use up to
  four axioms of the standard library: `ClassicalDedekindReals.sig_not_dec` and
  `ClassicalDedekindReals.sig_forall_dec` (construction of the reals),
  `FunctionalExtensionality.functional_extensionality_dep` (abbreviated `funext` below) and
  `Classical_Prop.classic`.  All other theorems are closed under the global context.  The table per property below
  lists them theorem by theorem.
* Libraries used in proofs, with everything rechecked by the kernel: Flocq (facts about binary64 rounding).  No
  axiom comes from it beyond the four above.
* The reading of the C++ source by the model.  It was written by hand from the text; the code is not executed.
  The comments give the lines, the list below what is left out or simplified.
* The C++ platform assumed: 32-bit `int`, 64-bit `size_t`, binary64 `double` with round to nearest even and no
  extended precision or contraction, the C locale, and glibc's spelling of `inf` and `nan`.

## What is modelled

| Source | Model |
|---|---|
| lib/utilities: UniqueList.h, `hash32`, `sign`, `indexOf`, `split`, `splitBySpaces`, `normalize`, Precision.h | MUtil, MGeom |
| lib/utilities: `radian`, `degrees`; Angle.h; Circle.cpp; `generateArcPoints`; `Segment::cartesianAngle` | MTrig (reals only) |
| `radian`, Circle.cpp, CircularHole.cpp, `generateArcPoints`, `Sine`, `Cosine` on doubles | MTrig64 (M_PI exact as in math.h; sin and cos of the C library as parameters) |
| lib/utilities: `toString<double>`, `toString<int>`, `toStringWithPrecision`; library `atoi`, `atof`, `getline` | MMesh, MFormat |
| DelynoiConfig.cpp, Point.cpp, Segment.cpp, PointSegment.cpp, IndexSegment.cpp, BoundingBox.cpp, delynoi_utilities.cpp, geometryFunctions.cpp | MGeom |
| convexHull.cpp (hull and rotating calipers) | MHull |
| Polygon.cpp (all methods) | MPolygon |
| Polygon.cpp:8-62, 82-105, 215-217, 270-275 on one object over its life, default constructor included | MPolyLife |
| SegmentMap, PointMap, NeighboursBySegment, NeighboursByPoint, EdgeData, PointData, mapdata.h | MMaps |
| Triangle.cpp, CenterTriangulationGenerator.cpp, EarTriangulationGenerator.cpp | MTriangle |
| FunctorClasses.cpp, functions.cpp, random functors and noise, PointGenerator.cpp | MGen |
| Region.cpp, Hole.h, PolygonalHole.cpp, CircularHole.cpp, ClipperWrapper.cpp | MRegion |
| TriangleDelaunayGenerator.cpp/.h (planar graph, reading of the output, call protocol, `initializeMesh`) | MDelaunay |
| the same callTriangle with its arrays, `malloc` and `free` | MHeap |
| DelaunayToVoronoi.cpp, TriangleVoronoiGenerator.cpp | MVoronoi |
| Pair.h, `sign<double>`, `IndexSegment::contains(IndexSegment)`, `collinear(segment, segment)`, RandomDoubleNoise.cpp, RandomIntegerNoise.cpp, Sine and Cosine, DelaunayTriangulationGenerator.cpp | MMore |
| `writeTriangleInputFile`, `printInFile` of SegmentMap and PointMap, `getString` of NeighboursBySegment, EdgeData and PointSegment, `Triangle::isNull`, the constructor of Triangle with a vector | MDump |
| Mesh.h (construction, reading, printing, copying, lookups), `Region::addSeedsFromFile`, `Region::printInFile` | MMesh |
| Sequences of the public calls that change one Region object | MHist |
| `getPath`, `openFile`, `createFromFile`, and the opening of the output file in every `printInFile` | MFile |
| RandomInteger.cpp, RandomDouble.cpp (bounds) | MRandom |
| README.md:38-75, test/SimpleSquareTestMain.cpp, test/LShapeTestMain.cpp: the sequence domain, generators, printing | MProgram |
| Mesh.h constructors, assignment, TriangleDelaunayGenerator with its pointer to the edge map: several objects in one program | MShare |
| PointGenerator, noise and functors behind pointers, order of evaluation of arguments | MFunctor |
| test/AllTests.cpp: the test functions and the statements of main | MScript |
| test/TimeSquareTestMain.cpp | MTime |
| test/ReadPointsFromFileTestMain.cpp | MRead |

Simplifications, each repeated in the comment of the definition concerned:

* `std::map` is the in-order list of its nodes; `std::unordered_map` is a list of entries searched with "same
  bucket and equal", for an arbitrary bucket count at every call; its iteration order is arbitrary in the theorems
  about printing.
* Lists are shorter than 2^31, so `size()` converts to `int` without change.
* The circle angles are kept as integers (they are integers below 2^53 in the code).
* The spacings of `PointGenerator::generate` are computed where they are used.
* A NaN carries no sign and no payload.
* `atof` is modelled for decimal notation, `inf` and `nan` (no hexadecimal floats, no `nan(...)`), and `inf`/`nan`
  only in lower case.

## What is not modelled

* The bodies of Clipper and Triangle, of the C++ standard library and of the random engines.
* Partial writes, reads during a write, symbolic links and directories: a file is a text under a path.
* Memory management other than the arrays of `callTriangle`: the maps allocated with `new` are never deleted.
* `maputils.h` (unused), `utilities::random_integer` (unused).
* The programs in test/ other than the five above: CustomGeneratorTestMain.cpp, SwissCheeseTestMain.cpp and UnicornTestMain.cpp have the
  shape of MProgram with other calls; SingleScriptTest.cpp measures time and repeats the
  body of `callTriangle` inside main.

## Findings: documented or natural expectations the code violates

`pop_front` leaves stale indices (C02); `hash32` overflows (C07); lookups insert (C09); areas are cached across
changes of the points (C14); `getCentroid` always answers the origin (C15), hence polygonal holes report the origin
as centre (C44) and Triangle receives the origin as hole marker (C49); the self-intersection guard never fires
(C16); a throwing `mutate` leaves a half-changed region (C17); "infinite" intersections are bounded (C20);
`containsPoint` accepts far points on near-duplicate outlines (C23); `isConvex` accepts non-convex polygons (C24);
polygon equality is hash equality (C26); ear triangulation can leave the polygon (C34); seeds can lie in holes
(C36); copying a region drops its seeds (C38); `containsPoint` ignores holes (C40); `addHole` can rewrite the
outline silently (C41); circles of grade above 360 hang (C43); `constantAlternating` drifts (C47); the first call
decides the triangulation for all later ones (C51); coinciding points break mesh indices (C52); a printed mesh
cannot be read back (C55); large indices and coordinates lose digits (C56); copies of a mesh share maps (C57), and so do all meshes of one generator and of its copies (C124); a functor used for both coordinates gives points that depend on the compiler (C125); a polygon can differ from its own copy and answer the area of a list it no longer has (C126);
`getConformingDelaunayTriangulation` returns a dangling reference (C63); `polyIntersection` is a difference (C64); == of
unique lists depends on insertion order (C67); collinearity of segments is not symmetric and equality of segments not
transitive (C68); a seed file shorter than announced repeats its last point or is undefined behaviour (C70); noise
leaves its documented range (C72); sine is not the documented formula (C73); Voronoi cells are not clipped to the domain
(C87); printing a segment map after a failed lookup reads an uninitialised value (C89); the point
map of a Voronoi diagram lists a cell several times at one vertex (C95); `Angle::operator<` is not a strict weak order
(C58); file functions need HOME and are undefined without it, and printing to a file that cannot be opened does nothing
and says nothing (C98); random integers can lie outside the given bounds (C99); points of
a constant grid can lie outside the box they are generated in (C105); the border test misses points on the border far from the origin (C128); a wrong number of corners in a mesh file is not noticed (C131).  Not a theorem: `noise.h` declares
`random_integer_noise(Functor*, double, double)` while noise.cpp defines it with `int` bounds, so a program that calls it
does not link.


## Per property

For each property: the model functions its theorems speak about (with the source they model), how it is
proved, and each theorem with the axioms `Print Assumptions` lists for it (`closed` = none; the four names are
expanded in the section on the trusted base).


### C01 UniqueList behaves like an insertion-ordered set

Modelled: `ul_run` (UniqueList.h:37-164), `ul_contains` (UniqueList.h:122-126), `ul_push_back` (UniqueList.h:46-58).

Proof: Refinement: an invariant relates the vector and the map of the list to the abstract insertion-ordered set; induction over the history of calls.

* `C01_uniquelist_refines_set` (T_Util.v; axioms: closed)

### C02 UniqueList::pop_front leaves stale indices

Modelled: `ul_run` (UniqueList.h:37-164), `ul_pop_front` (UniqueList.h:67-73), `ul_push_back` (UniqueList.h:46-58).

Proof: Direct characterisation of the state after pop_front, for every list; the stale entry is exhibited for all of them.

* `C02_pop_front_stale_indices` (T_Util.v; axioms: closed) — the documented expectation fails on every list of at least two elements.

### C03 force_push_back bypasses membership

Modelled: `ul_run` (UniqueList.h:37-164), `ul_force_push_back` (UniqueList.h:60-65), `ul_contains` (UniqueList.h:122-126), `ul_push_back` (UniqueList.h:46-58).

Proof: Characterisation for every list of what membership and a later push_back answer.

* `C03_force_push_back_hidden` (T_Util.v; axioms: closed)

### C04 Point < and == are mutually consistent

Modelled: `pt_ltb` (Point.cpp:64-75), `pt_eqb` (Point.cpp:36-41).

Proof: Case analysis on the tolerance comparisons, for all points; a second theorem does the same for IEEE doubles (comparisons only, so SpecFloat case analysis).

* `C04_point_trichotomy` (T_Geom.v; axioms: funext, sig_forall_dec, sig_not_dec) — exact coordinates
* `C04_point_trichotomy_binary64` (T_Geom.v; axioms: closed) — all finite doubles

### C05 Point::operator< is a strict weak order only on tolerance-separated sets

Modelled: `pt_ltb` (Point.cpp:64-75), `pt_eqb` (Point.cpp:36-41), `ul_push_list` (UniqueList.h:100-120), `ul_empty` (UniqueList.h:36-37).

Proof: Order axioms by case analysis under pairwise separation; the unconditional claim is refuted by a computed witness.

* `C05_point_order_on_separated_sets` (T_Geom.v; axioms: funext, sig_forall_dec, sig_not_dec) — the positive part
* `C05_point_order_refuted` (T_Geom.v; axioms: closed) — the expectation is refuted for doubles and the default tolerance: == is not transitive, and the unique points kept depend on the insertion order.

### C06 Segments are unordered pairs and hash consistently

Modelled: `iseg_eqb` (IndexSegment.cpp:59-62), `key` (mapdata.h:10-25), `key_eqb` (mapdata.h:21-24), `nb_eqb` (NeighboursBySegment.cpp:35-38), `edge` (EdgeData.cpp:4-9), `edge_eqb` (EdgeData.cpp:23-26), `iseg_hash` (mapdata.h:43-50), `key_hash` (mapdata.h:15-19,30-37), `nb_hash` (SegmentMap.h:14-18), `umap` (SegmentMap.h:29), `um_find` (SegmentMap.cpp:7), `match_in` (SegmentMap.h:29), `iseg_ltb` (IndexSegment.cpp:64-70).

Proof: Symmetry of the hash sum and of operator==; lookups by induction over the map for every sequence of bucket counts.

* `C06_equality_is_unordered` (T_Maps.v; axioms: closed) — == on IndexSegment, Key, NeighboursBySegment and EdgeData is equality of unordered pairs ([canon] sorts a pair), hence an equivalence.
* `C06_lookup_independent_of_orientation_and_buckets` (T_Maps.v; axioms: closed) — equal keys hash equally; a lookup finds the same entry whatever the number of buckets and the orientation of the key.
* `C06_segment_order` (T_Maps.v; axioms: closed) — < on IndexSegment is a strict total order on ordered pairs, separating the two orientations that == identifies.

### C07 hash32 executes signed overflow

Modelled: `hash32_strict` (utilities.cpp:60-68), `hash32` (utilities.cpp:60-68).

Proof: All 2^32 keys are covered by arithmetic on Z: the multiplication by 0x27d4eb2d stays in range only for the stated keys, by bounding the intermediate values and inverting the xor-shifts. The wrap-around version is proved separately.

* `C07_hash32_undefined` (T_Util.v; axioms: closed) — hash32 is free of undefined behaviour for exactly four of the 2^32 keys.
* `C07_hash32_wrap` (T_Util.v; axioms: closed)

### C08 SegmentMap records the first and the latest incident polygon

Modelled: `sm_op` (SegmentMap.cpp:6-23), `sm_run` (SegmentMap.cpp:4-23), `sm_contains` (SegmentMap.cpp:52-54), `iseg_match` (mapdata.h:43-50), `sm_get` (SegmentMap.cpp:21-23), `sm_size` (SegmentMap.cpp:33-35).

Proof: Refinement of the map against an association-list history; induction over the calls, for every bucket count at every call.

* `C08_segment_map_history` (T_Maps.v; axioms: closed) — the map agrees with a finite map on unordered pairs after every history, whatever the bucket counts during the history and at the lookup.
* `C08_first_and_latest_polygon` (T_Maps.v; axioms: closed) — with insertions of single polygons, in any orientation: the first one and the last of the others, or -1.

### C09 SegmentMap::get / Mesh::getNeighbours is not a pure lookup

Modelled: `segmap` (SegmentMap.h:29), `sm_contains` (SegmentMap.cpp:52-54), `iseg_match` (mapdata.h:43-50), `sm_get` (SegmentMap.cpp:21-23), `sm_size` (SegmentMap.cpp:33-35), `sm_insert` (SegmentMap.cpp:6-15).

Proof: Same invariant as C08, read at a lookup of an absent key.

* `C09_lookup_inserts` (T_Maps.v; axioms: closed)

### C10 PointMap accumulates every polygon of a point in order

Modelled: `pm_op` (PointMap.cpp:5-31), `pm_get` (PointMap.cpp:29-31), `pm_run` (PointMap.cpp:3-31), `pt_eqb` (Point.cpp:36-41), `pm_size` (PointMap.cpp:37-39).

Proof: Refinement of the ordered map to the history under separation of the stored points; induction over calls.

* `C10_point_map_history` (T_Maps.v; axioms: funext, sig_forall_dec, sig_not_dec)

### C11 Polygon edges form a closed chain

Modelled: `getSegments` (Polygon.cpp:118-125).

Proof: Induction over the index list; the chain is stated with nth_error only.

* `C11_segments_form_a_closed_chain` (T_Poly.v; axioms: closed)

### C12 Polygon area is the shoelace area

Modelled: `geo_area` (delynoi/src/utilities/geometryFunctions.cpp:29-39), `calculateArea` (Polygon.cpp:78-80), `signedArea` (Polygon.cpp:107-116), `geo_area_pts` (geometryFunctions.cpp:41-50), `polygon` (delynoi/include/delynoi/models/polygon/Polygon.h:25-32,197), `getArea` (Polygon.cpp:82-88).

Proof: Ring identities over R with induction over the vertex list (sums are defined in Spec.v without the model).

* `C12_area_is_shoelace` (T_Poly.v; axioms: funext, sig_forall_dec, sig_not_dec) — the three area functions give the shoelace value of the designated vertices.
* `C12_area_invariances` (T_Poly.v; axioms: funext, sig_forall_dec, sig_not_dec)
* `C12_out_of_range_is_undefined` (T_Poly.v; axioms: funext, sig_forall_dec, sig_not_dec)

### C13 isClockwise decides the sign of the area and fixCCW normalises it

Modelled: `isClockwise` (Polygon.cpp:224-240), `polygon` (delynoi/include/delynoi/models/polygon/Polygon.h:25-32,197), `fixCCW` (Polygon.cpp:270-275), `getArea` (Polygon.cpp:82-88).

Proof: Telescoping of the isClockwise sum to minus twice the signed area; then the reversal identity.

* `C13_isClockwise_is_negative_area` (T_Poly.v; axioms: funext, sig_forall_dec, sig_not_dec)
* `C13_fixCCW_normalises` (T_Poly.v; axioms: funext, sig_forall_dec, sig_not_dec)

### C14 getArea and getDiameter cache the first answer

Modelled: `polygon` (delynoi/include/delynoi/models/polygon/Polygon.h:25-32,197), `getArea` (Polygon.cpp:82-88), `geo_area` (delynoi/src/utilities/geometryFunctions.cpp:29-39), `getDiameter` (Polygon.cpp:90-97), `getPoints` (Polygon.cpp:277-285), `calculateDiameter` (Polygon.cpp:64-76).

Proof: Invariant of the cached fields over arbitrary later calls.

* `C14_area_is_cached` (T_Poly.v; axioms: closed)
* `C14_diameter_is_cached` (T_Poly.v; axioms: closed)

### C15 getCentroid returns the origin

Modelled: `polygon` (delynoi/include/delynoi/models/polygon/Polygon.h:25-32,197), `getCentroid` (Polygon.cpp:99-105), `point0` (Point.cpp:9-14), `calculateCentroid` (Polygon.cpp:127-145).

Proof: The inverted isValid test is followed through every call; the formula theorem proves what the unreachable computation would give.

* `C15_getCentroid_is_the_origin` (T_Poly.v; axioms: closed) — whatever happened to the polygon before, getCentroid answers (0,0).
* `C15_centroid_formula` (T_Poly.v; axioms: funext, sig_forall_dec, sig_not_dec) — the unused formula is the area-weighted centroid of the fan around any point [o].
* `C15_centroid_invariances` (T_Poly.v; axioms: funext, sig_forall_dec)

### C16 The self-intersection guard of the constructors never fires

Modelled: `polygon_ctor_idx` (Polygon.cpp:8-19), `polygon_ctor_pts` (Polygon.cpp:35-51), `trivialIndex` (delynoi_utilities.cpp:10-14), `isSelfIntersecting` (Polygon.cpp:291-311).

Proof: The constructors are evaluated for all inputs: the guard is never reached with a self-intersecting list because it tests the list before it is filled.

* `C16_constructors_never_throw` (T_Poly.v; axioms: closed) — no index list or point vector is rejected.
* `C16_guard_refuted` (T_Poly.v; axioms: closed)

### C17 mutate is not exception safe

Modelled: `region` (delynoi/include/delynoi/models/Region.h:21-36), `region_mutate` (Region.cpp:7-10), `trivialIndex` (delynoi_utilities.cpp:10-14), `pt_eqb` (Point.cpp:36-41), `getArea` (Polygon.cpp:82-88).

Proof: Characterisation of the object state after a throwing mutate; witness by vm_compute.

* `C17_mutate` (T_Region.v; axioms: closed)
* `C17_refuted` (T_Region.v; axioms: closed) — the failed call leaves a region whose area is that of the old outline

### C18 isSelfIntersecting checks exactly the non-adjacent edge pairs

Modelled: `isSelfIntersecting` (Polygon.cpp:291-311).

Proof: Loop invariant of the double loop: a pair is tested iff it is non-adjacent; exactness through C19.

* `C18_isSelfIntersecting_iff` (T_Poly.v; axioms: closed)
* `C18_crossing_pair_exact` (T_Poly.v; axioms: funext, sig_forall_dec, sig_not_dec) — with tolerance 0, [crossing_pair] is: not parallel and sharing a point
* `C18_small_and_rotated` (T_Poly.v; axioms: closed)

### C19 Segment intersection is sound and complete for crossing segments

Modelled: `intersects` (Segment.cpp:48-71).

Proof: Cramer's rule over R, both directions.

* `C19_intersection_correct` (T_Geom.v; axioms: funext, sig_forall_dec, sig_not_dec)

### C20 Parallel segments never intersect and 'infinite' lines are bounded

Modelled: `intersects` (Segment.cpp:48-71), `intersectionInfinite` (Segment.cpp:74-96), `intersects_raw` (Segment.cpp:48-71), `intersectionInfinite_raw` (Segment.cpp:73-96).

Proof: As C19; a separate theorem shows on IEEE doubles that a zero denominator makes every comparison false, as the guard in the model says.

* `C20_parallel_never_intersect` (T_Geom.v; axioms: funext, sig_forall_dec, sig_not_dec) — parallel lines
* `C20_infinite_is_bounded` (T_Geom.v; axioms: funext, sig_forall_dec, sig_not_dec) — intersectionInfinite is limited to the first segment
* `C20_lines_meet` (T_Geom.v; axioms: funext, sig_forall_dec, sig_not_dec) — every pair of non-parallel lines has such parameters
* `C20_guard_matches_ieee` (T_Geom.v; axioms: closed) — the explicit zero test of the model is what IEEE division does

### C21 Segment::contains accepts every point of the segment and only points near its line

Modelled: `seg_contains` (Segment.cpp:22-33).

Proof: Case analysis of the tolerance tests; the converse bound by a determinant estimate; a parametric family shows it is not a distance test.

* `C21_segment_contains` (T_Geom.v; axioms: funext, sig_forall_dec, sig_not_dec)
* `C21_not_a_distance_test` (T_Geom.v; axioms: funext, sig_forall_dec, sig_not_dec) — it is not a distance test, for every tolerance below 1/4

### C22 containsPoint implements the even-odd rule with its border

Modelled: `containsPoint` (Polygon.cpp:147-174), `containerEdge` (Polygon.cpp:176-187), `inEdges` (Polygon.cpp:189-193).

Proof: Loop invariant of the crossing loop against the even-odd rule of Spec.v; the rule itself is proved independent of rotation and reversal and right for convex outlines.

* `C22_even_odd_or_border` (T_Contains.v; axioms: funext, sig_forall_dec, sig_not_dec)
* `C22_container_edge` (T_Contains.v; axioms: funext, sig_forall_dec, sig_not_dec) — the border test, and the edge it finds
* `C22_border_contained` (T_Contains.v; axioms: funext, sig_forall_dec, sig_not_dec)
* `C22_outside_box` (T_Contains.v; axioms: funext, sig_forall_dec, sig_not_dec)
* `C22_crossing_rule` (T_Contains.v; axioms: funext, sig_forall_dec)
* `C22_convex` (T_Contains.v; axioms: funext, sig_forall_dec, sig_not_dec)

### C23 containsPoint can accept points far outside near-duplicate outlines

Modelled: `containsPoint` (Polygon.cpp:147-174).

Proof: Characterisation of the loop when `continue` leaves j behind; a parametric family of far points.

* `C23_gap` (T_Contains.v; axioms: funext, sig_forall_dec, sig_not_dec) — [q] may be at any distance to the right of the outline.
* `C23_far_points_accepted` (T_Contains.v; axioms: funext, sig_forall_dec, sig_not_dec)
* `C23_refuted` (T_Contains.v; axioms: closed)

### C24 isConvex accepts all convex polygons but also non-convex ones

Modelled: `isConvex` (Polygon.cpp:195-209), `orientation` (delynoi_utilities.cpp:28-30), `point0` (Point.cpp:9-14), `isSelfIntersecting` (Polygon.cpp:291-311).

Proof: The loop is proved equal to its first-turn specification; strictly convex polygons are accepted, a non-convex one as well.

* `C24_isConvex_is_the_first_turn_test` (T_Poly.v; axioms: funext, sig_forall_dec, sig_not_dec)
* `C24_isConvex_refuted` (T_Poly.v; axioms: closed)

### C25 containsEdge decides membership among the polygon edges

Modelled: `getSegments` (Polygon.cpp:118-125), `containsEdge` (Polygon.cpp:313-320).

Proof: Induction over the index list, against the segments of C11.

* `C25_containsEdge_iff_segment` (T_Poly.v; axioms: closed)

### C26 Polygon equality is hash equality

Modelled: `polygon_ctor_idx` (Polygon.cpp:8-19), `polygon_eqb` (Polygon.cpp:242-244, 287-289), `polygon` (delynoi/include/delynoi/models/polygon/Polygon.h:25-32,197), `polygon_ltb` (Polygon.cpp:287-289).

Proof: Permutation invariance of the hash sum; a collision is computed.

* `C26_same_vertices_are_equal` (T_Poly.v; axioms: closed)
* `C26_order_is_strict_weak` (T_Poly.v; axioms: closed)
* `C26_equality_refuted` (T_Poly.v; axioms: closed) — the converse fails, even for disjoint vertex sets

### C27 convexHull returns the hull chains

Modelled: `convexHull` (convexHull.cpp:17-32).

Proof: Invariants of the monotone chain (sorted, strict turns, all earlier points on the right side), induction over the sorted points.

* `C27_hull` (T_Hull.v; axioms: funext, sig_forall_dec, sig_not_dec) — the chains of [convexHull] (upper, lower)
* `C27_extreme_points` (T_Hull.v; axioms: funext, sig_forall_dec, sig_not_dec) — every strictly extreme point of the set is on one of the chains

### C28 getDiameter is the largest vertex distance

Modelled: `polygon` (delynoi/include/delynoi/models/polygon/Polygon.h:25-32,197), `getDiameter` (Polygon.cpp:90-97), `calipers` (convexHull.cpp:42-55).

Proof: Support-function argument: the calipers visit an antipodal pair at every direction, so the furthest pair is among the visited ones; termination by a decreasing measure.

* `C28_diameter` (T_Hull.v; axioms: funext, sig_forall_dec, sig_not_dec)
* `C28_calipers_terminate` (T_Hull.v; axioms: closed) — the calipers end normally, i.e. within the bounds of both vectors, for every set of points and any arithmetic
* `C28_small_polygons` (T_Hull.v; axioms: closed)

### C29 getMaxDistance is the longest edge

Modelled: `getMaxDistance` (Polygon.cpp:338-351).

Proof: Loop invariant of the maximum.

* `C29_getMaxDistance_is_the_longest_edge` (T_Poly.v; axioms: funext, sig_forall_dec, sig_not_dec)
* `C29_documented_value_refuted` (T_Poly.v; axioms: funext, sig_forall_dec, sig_not_dec) — the documented value (largest vertex distance) is missed on every rectangle

### C30 Circumcenter is equidistant from the vertices

Modelled: `circumcenter` (delynoi/src/models/polygon/Triangle.cpp:29-40), `triangle_ctor` (Triangle.cpp:6-8).

Proof: Field identities over R for non-collinear points.

* `C30_circumcenter` (T_Tri.v; axioms: funext, sig_forall_dec, sig_not_dec)
* `C30_triangle_stores_it` (T_Tri.v; axioms: funext, sig_forall_dec, sig_not_dec)

### C31 thirdPoint returns the vertex opposite to an edge

Modelled: `thirdPoint` (Triangle.cpp:48-65), `edge` (EdgeData.cpp:4-9), `umap` (SegmentMap.h:29), `key` (mapdata.h:10-25), `um_find` (SegmentMap.cpp:7), `key_eqb` (mapdata.h:21-24), `nextEdge` (Triangle.cpp:42-46).

Proof: Case analysis on the index triple.

* `C31_thirdPoint` (T_Tri.v; axioms: closed) — the permutation ranges over the three edges in both directions.
* `C31_nextEdge` (T_Tri.v; axioms: closed)

### C32 Center triangulation partitions the polygon area

Modelled: `isConvex` (Polygon.cpp:195-209), `center_triangulate` (delynoi/src/triangulation/CenterTriangulationGenerator.cpp:3-24), `triangle` (delynoi/include/delynoi/models/polygon/Triangle.h:12-19), `geo_area` (delynoi/src/utilities/geometryFunctions.cpp:29-39), `use` (TriangleDelaunayGenerator.cpp:144-152), `polygon` (delynoi/include/delynoi/models/polygon/Polygon.h:25-32,197).

Proof: Induction over the fan; area additivity by ring.

* `C32_center_triangulation` (T_Tri.v; axioms: funext, sig_forall_dec, sig_not_dec)
* `C32_rejects_non_convex` (T_Tri.v; axioms: closed)

### C33 Ear triangulation conserves signed area and terminates

Modelled: `ear_triangulate` (EarTriangulationGenerator.cpp:40-53), `ear_loop` (EarTriangulationGenerator.cpp:44-50), `triangle` (delynoi/include/delynoi/models/polygon/Triangle.h:12-19), `geo_area` (delynoi/src/utilities/geometryFunctions.cpp:29-39).

Proof: Measure argument for termination and an invariant (area of the remaining polygon + area of the triangles) over the loop.

* `C33_ear_triangulation` (T_Tri.v; axioms: funext, sig_forall_dec, sig_not_dec) — [rest] are the vertices that are left when no ear is found.

### C34 Ear triangulation emits triangles outside the polygon

Modelled: `isConvex` (Polygon.cpp:195-209), `ear_blocked` (EarTriangulationGenerator.cpp:22-26), `ear_triangulate` (EarTriangulationGenerator.cpp:40-53), `triangle` (delynoi/include/delynoi/models/polygon/Triangle.h:12-19), `isSelfIntersecting` (Polygon.cpp:291-311), `isClockwise` (Polygon.cpp:224-240), `containsPoint` (Polygon.cpp:147-174).

Proof: The ear test is evaluated for all triangles; a concrete polygon shows a triangle outside.

* `C34_every_triangle_passes` (T_Tri.v; axioms: funext, sig_forall_dec, sig_not_dec) — the convexity test accepts every triangle, so the first corner is cut unless a vertex lies in it.
* `C34_first_corner_is_cut` (T_Tri.v; axioms: funext, sig_forall_dec, sig_not_dec)
* `C34_tiling_refuted` (T_Tri.v; axioms: closed) — a simple counter-clockwise polygon; its first ear is clockwise and contains (0.25, 0), which is outside the polygon

### C35 getBox is the tightest bounding box

Modelled: `region` (delynoi/include/delynoi/models/Region.h:21-36), `getBox` (Region.cpp:116-130), `bb_xMin` (BoundingBox.cpp:24-26), `bb_xMax` (BoundingBox.cpp:32-34), `bb_yMin` (BoundingBox.cpp:28-30), `bb_yMax` (BoundingBox.cpp:36-38).

Proof: Induction over the vertices: lower bound and attained.

* `C35_box` (T_Region.v; axioms: funext, sig_forall_dec, sig_not_dec)

### C36 Seed points lie in the domain right after every seeding call

Modelled: `region` (delynoi/include/delynoi/models/Region.h:21-36), `addSeedPoints` (Region.cpp:92-95), `with_seeds` (Region.cpp:86-114), `addSeedsRead` (Region.cpp:97-114), `generateSeedPoints` (Region.cpp:86-90), `generate` (PointGenerator.cpp:27-39), `getBox` (Region.cpp:116-130), `addHole` (Region.cpp:38-80), `region_mutate` (Region.cpp:7-10), `hole_containsPoint` (Hole.h:73-110).

Proof: Invariant over histories of calls on a region; the domain is read in the plane by C22.

* `C36_seeding` (T_Region.v; axioms: closed) — [in_domain] are the answers of the containment tests of the code; in the plane they are the even-odd rule with its border.
* `C36_domain_in_the_plane` (T_Region.v; axioms: funext, sig_forall_dec, sig_not_dec)
* `C36_seeds_not_cleaned` (T_Region.v; axioms: closed)
* `C36_refuted` (T_Region.v; axioms: closed)

### C37 addSeedPoints replaces, the other seeding calls append

Modelled: `region` (delynoi/include/delynoi/models/Region.h:21-36), `addSeedPoints` (Region.cpp:92-95), `with_seeds` (Region.cpp:86-114), `addSeedsRead` (Region.cpp:97-114), `generateSeedPoints` (Region.cpp:86-90).

Proof: State characterisation of each seeding call.

* `C37_addSeedPoints_replaces` (T_Region.v; axioms: closed)
* `C37_others_append` (T_Region.v; axioms: closed)

### C38 Copying a Region drops its seeds

Modelled: `region` (delynoi/include/delynoi/models/Region.h:21-36), `region_copy` (Region.cpp:25-28), `region_containsPoint` (Region.cpp:181-185), `region_getSegments` (Region.cpp:171-179), `getRegionPoints` (Region.cpp:159-169), `getBox` (Region.cpp:116-130).

Proof: The copy constructor is followed field by field; observers before and after are compared.

* `C38_copy` (T_Region.v; axioms: closed)
* `C38_copy_answers` (T_Region.v; axioms: closed)
* `C38_refuted` (T_Region.v; axioms: closed)

### C39 Region segments index the region points

Modelled: `region` (delynoi/include/delynoi/models/Region.h:21-36), `region_getSegments` (Region.cpp:171-179), `getRegionPoints` (Region.cpp:159-169).

Proof: Induction over the holes with the running offset.

* `C39_segments` (T_Region.v; axioms: closed)

### C40 Region::containsPoint ignores holes

Modelled: `region` (delynoi/include/delynoi/models/Region.h:21-36), `region_containsPoint` (Region.cpp:181-185), `region_inEdges` (Region.cpp:187-191), `addHole` (Region.cpp:38-80), `hole` (delynoi/include/delynoi/models/hole/Hole.h:12-42), `hole_containsPoint` (Hole.h:73-110).

Proof: containsPoint is read in the plane by C22; for every region with an interior hole a counterexample exists.

* `C40_outline_only` (T_Region.v; axioms: funext, sig_forall_dec, sig_not_dec)
* `C40_on_outline` (T_Region.v; axioms: funext, sig_forall_dec, sig_not_dec)
* `C40_interior_hole` (T_Region.v; axioms: closed)
* `C40_refuted` (T_Region.v; axioms: closed)

### C41 addHole outcomes

Modelled: `region` (delynoi/include/delynoi/models/Region.h:21-36), `hole` (delynoi/include/delynoi/models/hole/Hole.h:12-42), `addHole` (Region.cpp:38-80), `trivialIndex` (delynoi_utilities.cpp:10-14), `region_containsPoint` (Region.cpp:181-185), `pt_eqb` (Point.cpp:36-41).

Proof: Case analysis of the guards of addHole, for an arbitrary result of the clipping library.

* `C41_outcomes` (T_Region.v; axioms: funext, sig_forall_dec, sig_not_dec)
* `C41_out_of_range` (T_Region.v; axioms: funext, sig_forall_dec, sig_not_dec)
* `C41_disjoint_hole` (T_Region.v; axioms: funext, sig_forall_dec, sig_not_dec)
* `C41_refuted` (T_Region.v; axioms: closed)

### C42 Scaling to integers loses less than one grid unit

Modelled: `scalePoint` (Region.cpp:46-47), `unscalePoint` (Region.cpp:66-67).

Proof: Int_part arithmetic over R; on doubles, error bounds of the product and of the quotient plus the truncation; the decimal expectation is refuted by a computed double.

* `C42_on_doubles` (T_File.v; axioms: classic, funext, sig_forall_dec, sig_not_dec) — on doubles: the round trip through the integers of the clipping library.
* `C42_roundtrip` (T_Region.v; axioms: funext, sig_forall_dec, sig_not_dec)
* `C42_binary64_refuted` (T_Region.v; axioms: closed) — the decimal 0.00007 is moved to 0.00006

### C43 discretizeCircle terminates only for grades 1..360 and its size is not the grade

Modelled: `config` (delynoi/include/delynoi/config/DelynoiConfig.h:9-27), `discretizeCircle` (Circle.cpp:10-27).

Proof: Euclidean division: divisibility of 360 decides both; the loop by induction with an integer angle.

* `C43_discretizeCircle` (T_Gen.v; axioms: funext, sig_forall_dec, sig_not_dec)

### C44 Polygonal holes always report the origin as center

Modelled: `polygonalHole` (delynoi/src/models/hole/PolygonalHole.cpp:3-9), `region` (delynoi/include/delynoi/models/Region.h:21-36), `scalePoint` (Region.cpp:46-47), `region_containsPoint` (Region.cpp:181-185), `addHole` (Region.cpp:38-80), `hole_containsPoint` (Hole.h:73-110), `region_ctor` (Region.cpp:3-5).

Proof: Follows C15 through Hole; consequence for addHole derived.

* `C44_center` (T_Region.v; axioms: closed)
* `C44_decides_addHole` (T_Region.v; axioms: closed)
* `C44_refuted` (T_Region.v; axioms: closed) — the centre is not a point of the hole; a hole inside the outline is rejected

### C45 PointGenerator fills the box with a row-major grid

Modelled: `generator` (delynoi/src/models/generator/PointGenerator.cpp:5-25), `generate` (PointGenerator.cpp:27-39), `result` (PointGenerator.cpp:41-51), `bb_xMin` (BoundingBox.cpp:24-26), `bb_width` (BoundingBox.cpp:16-38), `bb_yMin` (BoundingBox.cpp:28-30), `bb_height` (BoundingBox.cpp:20-22), `bbox` (BoundingBox.cpp:3-6), `f_constant` (delynoi/src/models/generator/functions/functions.cpp:7-21), `bb_xMax` (BoundingBox.cpp:32-34), `bb_yMax` (BoundingBox.cpp:36-38), `apply_all` (PointGenerator.cpp:31-38), `f_uniform` (functions.cpp:19-21).

Proof: Induction over rows and columns with the functor state threaded through.

* `C45_row_major_grid` (T_Gen.v; axioms: closed) — for every rule and arithmetic, the points generated and the states of the rule.
* `C45_nothing_for_empty_grids` (T_Gen.v; axioms: closed)
* `C45_constant_rule_grid` (T_Gen.v; axioms: funext, sig_forall_dec, sig_not_dec)
* `C45_single_row_or_column` (T_Gen.v; axioms: funext, sig_forall_dec, sig_not_dec) — one row or one column: no finite coordinates; in binary64 the coordinate is NaN
* `C45_single_column_nan` (T_Gen.v; axioms: closed)
* `C45_functors_applied` (T_Gen.v; axioms: closed) — each functor is applied to its coordinate of the nodes, row by row; a functor for one axis displaces the other coordinate
* `C45_stateless_functors` (T_Gen.v; axioms: closed)

### C46 displace_points alternates

Modelled: `apply_all` (PointGenerator.cpp:31-38), `f_displace_points` (functions.cpp:11-13).

Proof: Induction over the calls.

* `C46_displace_points_alternates` (T_Gen.v; axioms: closed)

### C47 constantAlternating drifts after the second batch

Modelled: `apply_all` (PointGenerator.cpp:31-38), `f_constantAlternating` (functions.cpp:15-17).

Proof: Invariant of (visited places, delta, phase) over blocks of equal length.

* `C47_displaced_in_blocks` (T_Gen.v; axioms: funext, sig_forall_dec, sig_not_dec) — the values are displaced in blocks of n+1, not of n.
* `C47_first_three_rows` (T_Gen.v; axioms: funext, sig_forall_dec, sig_not_dec)

### C48 Configuration setters are independent and persistent

Modelled: `config_op` (DelynoiConfig.cpp:12-30), `instance` (DelynoiConfig.cpp:48-54), `config_call` (DelynoiConfig.cpp:48-54).

Proof: Induction over the history of setters on the singleton.

* `C48_configuration_history` (T_Geom.v; axioms: closed)

### C49 The planar graph handed to Triangle is well formed

Modelled: `region` (delynoi/include/delynoi/models/Region.h:21-36), `pseg` (PointSegment.cpp:3), `getRegionPoints` (Region.cpp:159-169), `build_pslg` (TriangleDelaunayGenerator.cpp:20-66), `hole` (delynoi/include/delynoi/models/hole/Hole.h:12-42), `pt_eqb` (Point.cpp:36-41), `polygonalHole` (delynoi/src/models/hole/PolygonalHole.cpp:3-9).

Proof: UniqueList facts of C01 transferred to points under separation; index maps composed.

* `C49_planar_graph` (T_Delaunay.v; axioms: funext, sig_forall_dec, sig_not_dec)
* `C49_polygonal_hole_marker` (T_Delaunay.v; axioms: closed) — a polygonal hole is always handed over with the marker (0, 0)

### C50 Delaunay edges know their incident triangles

Modelled: `trout` (TriangleDelaunayGenerator.cpp:82-116), `delaunay` (TriangleDelaunayGenerator.h:23-41), `read_output` (TriangleDelaunayGenerator.cpp:82-124), `sm_get` (SegmentMap.cpp:21-23), `iseg_match` (mapdata.h:43-50), `read_point` (TriangleDelaunayGenerator.cpp:82-89).

Proof: Invariants over the fill loops of readOutput; totality by induction over the output of Triangle under its documented conventions.

* `C50_edges_know_triangles` (T_Delaunay.v; axioms: closed)
* `C50_output_is_read` (T_Delaunay.v; axioms: funext, sig_forall_dec, sig_not_dec) — in exact arithmetic an output without flat triangles is always read

### C51 A generator triangulates at most once, whichever method is called first

Modelled: `switches` (TriangleDelaunayGenerator.cpp:146,188,197,207), `pslg` (delynoi/src/voronoi/TriangleDelaunayGenerator.cpp:25-68), `trout` (TriangleDelaunayGenerator.cpp:82-116), `region` (delynoi/include/delynoi/models/Region.h:21-36), `gen_run` (TriangleDelaunayGenerator.cpp:144-213), `gen_ctor` (TriangleDelaunayGenerator.cpp:3-7), `build_pslg` (TriangleDelaunayGenerator.cpp:20-66), `region_copy` (Region.cpp:25-28), `read_output` (TriangleDelaunayGenerator.cpp:82-124).

Proof: Induction over histories of calls of the generator, with Triangle an arbitrary function.

* `C51_one_triangulation` (T_Delaunay.v; axioms: closed)
* `C51_constrained_refuted` (T_Delaunay.v; axioms: closed) — the constrained triangulation after the conforming one, and restricted segments after none
* `C51_restricted_refuted` (T_Delaunay.v; axioms: closed)

### C52 The Delaunay mesh is index-consistent when Triangle's points are distinct

Modelled: `trout` (TriangleDelaunayGenerator.cpp:82-116), `delaunay` (TriangleDelaunayGenerator.h:23-41), `read_output` (TriangleDelaunayGenerator.cpp:82-124), `read_point` (TriangleDelaunayGenerator.cpp:82-89), `initializeMesh` (TriangleDelaunayGenerator.h:94-116), `polygon_ctor_idx` (Polygon.cpp:8-19), `triangle_ctor` (Triangle.cpp:6-8), `polygon` (delynoi/include/delynoi/models/polygon/Polygon.h:25-32,197), `triangle` (delynoi/include/delynoi/models/polygon/Triangle.h:12-19), `pm_get` (PointMap.cpp:29-31), `pt_eqb` (Point.cpp:36-41), `sm_get` (SegmentMap.cpp:21-23), `iseg_match` (mapdata.h:43-50).

Proof: Under distinct points the deduplicated list is the list itself; otherwise a computed counterexample and the general statement.

* `C52_mesh_index_consistent` (T_Delaunay.v; axioms: funext, sig_forall_dec, sig_not_dec)
* `C52_coinciding_points` (T_Delaunay.v; axioms: classic, funext, sig_forall_dec, sig_not_dec) — without assuming the points apart: the indices then refer to the list without repetitions, and a triangle two of whose corners coincide makes the construction throw
* `C52_coinciding_points_refuted` (T_Delaunay.v; axioms: closed) — two output points 1e-7 apart: both triangles have the side 1-2 but the edge map says it has no triangle, and the edge map has a key outside the point list

### C53 One Voronoi cell per Delaunay vertex with valid, linked edges

Modelled: `trout` (TriangleDelaunayGenerator.cpp:82-116), `delaunay` (TriangleDelaunayGenerator.h:23-41), `mesh` (delynoi/include/delynoi/models/Mesh.h:15-33), `polygon` (delynoi/include/delynoi/models/polygon/Polygon.h:25-32,197), `read_output` (TriangleDelaunayGenerator.cpp:82-124), `voronoi` (DelaunayToVoronoi.cpp:3-105).

Proof: Invariant of the cell walk: edges, points and stored cells stay in range and linked.

* `C53_cells` (T_Voronoi.v; axioms: closed)

### C54 The walk around an interior vertex terminates and visits its triangles in rotation order

Modelled: `trout` (TriangleDelaunayGenerator.cpp:82-116), `delaunay` (TriangleDelaunayGenerator.h:23-41), `read_output` (TriangleDelaunayGenerator.cpp:82-124), `read_point` (TriangleDelaunayGenerator.cpp:82-89), `circumcenter` (delynoi/src/models/polygon/Triangle.cpp:29-40), `cell` (TriangleDelaunayGenerator.cpp:26,28,43,63), `ulist` (lib/utilities/include/utilities/UniqueList.h:9-34), `polygon` (delynoi/include/delynoi/models/polygon/Polygon.h:25-32,197), `vstate` (DelaunayToVoronoi.cpp:4-14), `build_cell` (DelaunayToVoronoi.cpp:9-99).

Proof: The walk is related to the rotation around the vertex, which is a permutation: it closes after as many steps as there are triangles.

* `C54_walk_around` (T_Voronoi.v; axioms: closed)

### C55 A printed mesh cannot be read back

Modelled: `pt_ltb` (Point.cpp:64-75), `createFromStream` (Mesh.h:167-201), `atof64` (Mesh.h:176), `polygon_ctor_idx` (Polygon.cpp:8-19), `mesh_new` (Mesh.h:129-132), `unlines` (Mesh.h:232-248), `print_int` (utilities.h:12-20), `point_string` (delynoi/src/models/basic/Point.cpp:28-30), `print_double` (utilities.h:12-20), `polygon_string` (Polygon.cpp:246-254), `um_find` (SegmentMap.cpp:7), `iseg_match` (mapdata.h:43-50), `printInStream` (Mesh.h:232-248), `mesh` (delynoi/include/delynoi/models/Mesh.h:15-33), `polygon` (delynoi/include/delynoi/models/polygon/Polygon.h:25-32,197), `sm_op` (SegmentMap.cpp:6-23), `sm_run` (SegmentMap.cpp:4-23).

Proof: Printed text is parsed line by line: lemmas that reading a printed integer or coordinate gives it back; the edge block is then read as the polygon block.

* `C55_six_digit_mesh_is_read` (T_Format.v; axioms: classic, funext, sig_forall_dec, sig_not_dec) — with six-digit coordinates and indices below a million a file with a point section and a polygon section is read back exactly, coordinates included (boundary marks are not stored).
* `C55_printed_mesh_is_misread` (T_Mesh.v; axioms: closed) — the edge section of a printed mesh is read as its polygon section: one polygon with a single vertex for every edge, so a mesh with a proper polygon is never read back.
* `C55_points_and_polygons_are_read` (T_Mesh.v; axioms: closed) — a file with a point section and a polygon section is read back: points, polygons, and the neighbours of every edge.
* `C55_second_file_restarts_numbering` (T_Mesh.v; axioms: closed) — reading into a mesh with elements appends the polygons, but numbers them from 0 in the edge map.

### C56 Indices are printed through double formatting

Modelled: `print_double` (utilities.h:12-20), `print_g` (utilities.h:12-20), `atof64` (Mesh.h:176), `decimal64` (Mesh.h:176), `print_int` (utilities.h:12-20), `atoi` (Mesh.h:171,181,189).

Proof: Correctness of the decimal printing algorithm (digits, exponent, rounding) over Q, and of the reader (correct rounding through Flocq).

* `C56_coordinates_have_six_digits` (T_Format.v; axioms: closed) — a finite coordinate is printed as a decimal literal: its value rounded to six significant digits.
* `C56_index_is_printed_as_a_double` (T_Format.v; axioms: classic, funext, sig_forall_dec, sig_not_dec) — an index is printed like the double it is converted to.
* `C56_reading_is_nearest` (T_Format.v; axioms: classic, funext, sig_forall_dec, sig_not_dec) — reading a decimal gives the nearest double.
* `C56_reread_coordinate` (T_Format.v; axioms: closed) — a coordinate printed and read again is the double nearest to its six digits.
* `C56_six_digit_coordinates_survive` (T_Format.v; axioms: classic, funext, sig_forall_dec, sig_not_dec) — the coordinates with at most six digits are the ones that survive.
* `C56_small_indices_survive` (T_Mesh.v; axioms: closed) — indices below a million survive printing and reading.
* `C56_large_indices_are_lost` (T_Mesh.v; axioms: closed) — from a million on an index is printed as a literal with at most six digits of mantissa within one part in 200000, and read back as a single digit.

### C57 Copies of a Mesh share their neighbour maps

Modelled: `heap` (TriangleDelaunayGenerator.cpp:26,28,43,63), `mobj` (Mesh.h:21-22), `mesh_view` (Mesh.h:21-35), `pair_step` (Mesh.h:150-204, 275-278), `mesh_copy` (Mesh.h:150-156), `obj_createFromStream` (Mesh.h:167-201), `createFromStream` (Mesh.h:167-201), `sm_size` (SegmentMap.cpp:33-35), `um_find` (SegmentMap.cpp:7), `iseg_match` (mapdata.h:43-50).

Proof: Two objects over a heap of maps; histories by induction.

* `C57_copies_share_their_maps` (T_Mesh.v; axioms: closed) — after any history of operations on a mesh and its copy both have the same neighbour maps, while the points and polygons of each depend on its own operations only.
* `C57_reading_into_a_copy` (T_Mesh.v; axioms: closed) — reading a file into a copy replaces the edges of the original by the edges read.
* `C57_copy_is_independent_refuted` (T_Mesh.v; axioms: closed) — a copied empty mesh gets neighbours of polygons it does not have.

### C58 Angles

Modelled: `degrees` (utilities.cpp:54-58), `radian` (lib/utilities/src/utilities.cpp:50-52), `cartesianAngle` (delynoi/src/models/basic/Segment.cpp:40-46), `angle_ctor` (delynoi/include/delynoi/models/basic/Angle.h:19-26), `angle_ltb` (Angle.h:33-41).

Proof: Trigonometry of the standard library (atan, PI); floor arithmetic for degrees, minutes, seconds.

* `C58_radian_degrees` (T_Gen.v; axioms: funext, sig_forall_dec, sig_not_dec)
* `C58_cartesianAngle` (T_Gen.v; axioms: classic, funext, sig_forall_dec, sig_not_dec)
* `C58_Angle` (T_Gen.v; axioms: funext, sig_forall_dec, sig_not_dec)
* `C58_Angle_overflow` (T_Gen.v; axioms: funext, sig_forall_dec, sig_not_dec)
* `C58_Angle_order` (T_Gen.v; axioms: funext, sig_forall_dec) — one angle is before another when it is smaller by at least the tolerance, which is no weak order: being near is not transitive
* `C58_Angle_weak_order_refuted` (T_Gen.v; axioms: funext, sig_forall_dec)

### C59 Arc discretisation

Modelled: `config` (delynoi/include/delynoi/config/DelynoiConfig.h:9-27), `generateArcPoints` (delynoi_utilities.cpp:32-49).

Proof: Induction over the steps; distance by sin2_cos2.

* `C59_arc_points` (T_Gen.v; axioms: funext, sig_forall_dec, sig_not_dec)

### C60 Bounding boxes are normalised

Modelled: `bbox` (BoundingBox.cpp:3-6), `bb_width` (BoundingBox.cpp:16-38), `bb_height` (BoundingBox.cpp:20-22), `bb_xMin` (BoundingBox.cpp:24-26), `bb_xMax` (BoundingBox.cpp:32-34), `bb_yMin` (BoundingBox.cpp:28-30), `bb_yMax` (BoundingBox.cpp:36-38), `bb_contains` (BoundingBox.cpp:55-57), `bb_eqb` (BoundingBox.cpp:40-43), `bb_segments` (BoundingBox.cpp:45-53).

Proof: Case analysis on min and max.

* `C60_bounding_box` (T_Geom.v; axioms: funext, sig_forall_dec, sig_not_dec)
* `C60_bounding_box_segments` (T_Geom.v; axioms: funext, sig_forall_dec, sig_not_dec)

### C61 Segment length is a metric and midpoints are equidistant

Modelled: `seg_length` (Segment.cpp:98-101), `iseg_middle` (IndexSegment.cpp:24-26), `iseg_length` (IndexSegment.cpp:72-74), `normalize` (lib/utilities/src/utilities.cpp:44-48), `iseg_orderCCW` (IndexSegment.cpp:40-46), `iseg_isCCW` (IndexSegment.cpp:48-53).

Proof: Cauchy-Schwarz over R.

* `C61_length_is_a_metric` (T_Geom.v; axioms: funext, sig_forall_dec, sig_not_dec)
* `C61_middle_point` (T_Geom.v; axioms: funext, sig_forall_dec, sig_not_dec)
* `C61_normalize` (T_Geom.v; axioms: funext, sig_forall_dec, sig_not_dec)
* `C61_orderCCW` (T_Geom.v; axioms: funext, sig_forall_dec, sig_not_dec)

### C62 splitBySpaces yields exactly the non-blank fields

Modelled: `splitBySpaces` (utilities.cpp:84-86).

Proof: Induction over the text: the field list is the unique decomposition into non-blank words.

* `C62_split_fields` (T_Util.v; axioms: closed)

### C63 getConformingDelaunayTriangulation returns a dangling reference

Modelled: `switches` (TriangleDelaunayGenerator.cpp:146,188,197,207), `pslg` (delynoi/src/voronoi/TriangleDelaunayGenerator.cpp:25-68), `trout` (TriangleDelaunayGenerator.cpp:82-116), `gen_do` (TriangleDelaunayGenerator.cpp:144-152, 186-193, 195-202, 204-212), `use` (TriangleDelaunayGenerator.cpp:144-152), `gen_ctor` (TriangleDelaunayGenerator.cpp:3-7).

Proof: The handle is modelled as dead on return; every use is undefined behaviour.

* `C63_dangling_reference` (T_Delaunay.v; axioms: closed)
* `C63_usable_refuted` (T_Delaunay.v; axioms: closed)

### C64 ClipperWrapper::polyIntersection computes a difference

Modelled: `clip_type` (ClipperWrapper.cpp:3-21), `scalePoint` (Region.cpp:46-47), `polyIntersection` (ClipperWrapper.cpp:3-21).

Proof: The clip type handed to the library is read off the model.

* `C64_difference` (T_Region.v; axioms: closed)

### C65 The Voronoi construction completes on every manifold triangulation and its cells are the dual cells

Modelled: `trout` (TriangleDelaunayGenerator.cpp:82-116), `delaunay` (TriangleDelaunayGenerator.h:23-41), `read_output` (TriangleDelaunayGenerator.cpp:82-124), `mesh` (delynoi/include/delynoi/models/Mesh.h:15-33), `polygon` (delynoi/include/delynoi/models/polygon/Polygon.h:25-32,197), `voronoi` (DelaunayToVoronoi.cpp:3-105), `read_point` (TriangleDelaunayGenerator.cpp:82-89), `circumcenter` (delynoi/src/models/polygon/Triangle.cpp:29-40), `um_find` (SegmentMap.cpp:7), `iseg_match` (mapdata.h:43-50).

Proof: Totality of the walk for interior and border vertices of a manifold triangulation (umbrella permutation), and the segment map as the fold of C08 over the cell inserts.

* `C65_diagram_is_built` (T_Voronoi.v; axioms: closed)

### C66 Fixed-precision formatting

Modelled: `toStringWithPrecision` (utilities.cpp:17-24).

Proof: Rounding over Q at a fixed number of decimals.

* `C66_fixed_notation` (T_Format.v; axioms: closed) — fixed notation: the value rounded to the given number of decimals, all of them written.

### C67 UniqueList queries agree with the history

Modelled: `ul_run` (UniqueList.h:37-164), `ul_hasCommon` (UniqueList.h:133-142), `ul_indexOf` (UniqueList.h:85-88), `ul_push_back` (UniqueList.h:46-58), `ul_eqb` (UniqueList.h:90-93), `ul_size` (UniqueList.h:75-78), `ul_get` (UniqueList.h:95-98).

Proof: From the list/map invariant of C01 by induction over both histories; == by induction over the two sequences.

* `C67_queries` (T_More.v; axioms: closed) — the query functions of a UniqueList after any history.

### C68 Containment, collinearity and equality of segments

Modelled: `pseg` (PointSegment.cpp:3), `iseg_isContained` (IndexSegment.cpp:76-78), `iseg_contains_seg` (delynoi/src/models/basic/IndexSegment.cpp:20-22), `collinear_segs` (delynoi/src/utilities/geometryFunctions.cpp:20-23), `pseg_eqb` (PointSegment.cpp:23-26).

Proof: The tolerance tests are convex in the inner point, so the two ends decide for the whole segment; witnesses for asymmetry and non-transitivity.

* `C68_segment_in_segment` (T_More.v; axioms: funext, sig_forall_dec, sig_not_dec)
* `C68_index_segment_in_segment` (T_More.v; axioms: funext, sig_forall_dec, sig_not_dec)
* `C68_collinear_segments` (T_More.v; axioms: funext, sig_forall_dec, sig_not_dec)
* `C68_collinear_is_not_symmetric` (T_More.v; axioms: funext, sig_forall_dec, sig_not_dec)
* `C68_segment_equality` (T_More.v; axioms: funext, sig_forall_dec, sig_not_dec)

### C69 sign and Pair

Modelled: `sign_int` (utilities.h:29-32), `sign_num` (lib/utilities/include/utilities/utilities.h:29-32), `pairn_ltb` (Pair.h:52-59), `pairn_eqb` (Pair.h:32-35), `pair_dot` (lib/utilities/include/utilities/Pair.h:6-19), `pair_mul` (Pair.h:42-45), `pair_add` (Pair.h:47-50).

Proof: Comparisons of finite doubles lifted to comparisons of their values (PFloat), then order reasoning over R.

* `C69_sign_of_int` (T_More.v; axioms: closed)
* `C69_sign_of_double` (T_More.v; axioms: classic, funext, sig_forall_dec, sig_not_dec)
* `C69_pair_order` (T_More.v; axioms: classic, funext, sig_forall_dec, sig_not_dec)
* `C69_pair_arithmetic` (T_More.v; axioms: classic, funext, sig_forall_dec, sig_not_dec)

### C70 A printed region is a seed file

Modelled: `region` (delynoi/include/delynoi/models/Region.h:21-36), `getRegionPoints` (Region.cpp:159-169), `region_print` (Region.cpp:197-227), `addSeedsFromFile` (Region.cpp:97-114), `with_seeds` (Region.cpp:86-114), `print_double` (utilities.h:12-20), `atof64` (Mesh.h:176), `read_seed_file` (Region.cpp:97-114), `unlines` (Mesh.h:232-248), `print_int` (utilities.h:12-20), `point_string` (delynoi/src/models/basic/Point.cpp:28-30).

Proof: The printed text is a seed file followed by the segment section; the reader is run over it by induction on the points; six-digit survival from C56.

* `C70_region_as_seed_file` (T_More.v; axioms: closed) — a printed region read as a seed file.
* `C70_six_digit_seeds` (T_More.v; axioms: classic, funext, sig_forall_dec, sig_not_dec)
* `C70_short_file` (T_More.v; axioms: closed) — the file announces more points than it has

### C71 DelaunayTriangulationGenerator hands the polygon to the triangulator and returns its triangles

Modelled: `polygon` (delynoi/include/delynoi/models/polygon/Polygon.h:25-32,197), `delaunayTriangulate` (delynoi/src/triangulation/DelaunayTriangulationGenerator.cpp:3-10), `triangle` (delynoi/include/delynoi/models/polygon/Triangle.h:12-19).

Proof: The planar graph of a region made from the polygon has the original indices because nothing is merged; then C50 and C52.

* `C71_polygon_triangulation` (T_More.v; axioms: funext, sig_forall_dec, sig_not_dec) — DelaunayTriangulationGenerator.

### C72 Noise wrappers add a draw or its opposite

Modelled: `functor` (noise/RandomDoubleNoise.cpp:15-17), `apply_all` (PointGenerator.cpp:31-38), `noise_functor` (RandomDoubleNoise.cpp:15-17).

Proof: Induction over the calls, the wrapped functor advancing in step.

* `C72_noise` (T_More.v; axioms: funext, sig_forall_dec, sig_not_dec) — noise.

### C73 Sine and cosine functions

Modelled: `sine_apply` (delynoi/src/models/generator/functions/FunctorClasses.cpp:33-35), `cosine_apply` (FunctorClasses.cpp:50-52).

Proof: Trigonometric identities over R; witness at x = 1 against the documented form.

* `C73_sine_and_cosine` (T_More.v; axioms: funext, sig_forall_dec, sig_not_dec) — sine and cosine.
* `C73_documented_form_refuted` (T_More.v; axioms: classic, funext, sig_forall_dec, sig_not_dec)

### C74 Areas, orientation and convexity are exact on doubles with grid coordinates

Modelled: `geo_area` (delynoi/src/utilities/geometryFunctions.cpp:29-39), `signedArea` (Polygon.cpp:107-116), `polygon` (delynoi/include/delynoi/models/polygon/Polygon.h:25-32,197), `getArea` (Polygon.cpp:82-88), `isClockwise` (Polygon.cpp:224-240), `fixCCW` (Polygon.cpp:270-275), `isConvex` (Polygon.cpp:195-209).

Proof: Every intermediate result is an integer multiple of 2^(2e-1) below 2^53 units, hence exactly representable (Flocq rounding facts); the real-number theorems C12, C13 and C24 then transfer through a relation between the two runs.

* `C74_area_exact` (T_Grid.v; axioms: classic, funext, sig_forall_dec, sig_not_dec) — areas, orientation and convexity.
* `C74_clockwise_exact` (T_Grid.v; axioms: classic, funext, sig_forall_dec, sig_not_dec)
* `C74_fixCCW_exact` (T_Grid.v; axioms: classic, funext, sig_forall_dec, sig_not_dec)
* `C74_convexity_exact` (T_Grid.v; axioms: classic, funext, sig_forall_dec, sig_not_dec)

### C75 Hull and diameter on doubles with grid coordinates

Modelled: `convexHull` (convexHull.cpp:17-32), `polygon` (delynoi/include/delynoi/models/polygon/Polygon.h:25-32,197), `getDiameter` (Polygon.cpp:90-97).

Proof: The orientation signs agree with exact arithmetic, so sort, chains and calipers take the same branches as in C27 and C28; one correctly rounded square root at the end, monotone under max.

* `C75_hull_exact` (T_Grid.v; axioms: classic, funext, sig_forall_dec, sig_not_dec) — hull and diameter.
* `C75_extreme_points` (T_Grid.v; axioms: classic, funext, sig_forall_dec, sig_not_dec)
* `C75_diameter_correctly_rounded` (T_Grid.v; axioms: classic, funext, sig_forall_dec, sig_not_dec)

### C76 containsPoint on doubles with grid coordinates

Modelled: `containsPoint` (Polygon.cpp:147-174).

Proof: Error analysis of the rounded abscissa shows that the crossing test can only differ from the exact one for points on the edge, which the border test accepts anyway; then C22.

* `C76_contains_even_odd` (T_Grid.v; axioms: classic, funext, sig_forall_dec, sig_not_dec) — containsPoint.
* `C76_contains_border` (T_Grid.v; axioms: classic, funext, sig_forall_dec, sig_not_dec)
* `C76_contains_convex` (T_Grid.v; axioms: classic, funext, sig_forall_dec, sig_not_dec)

### C77 Ear triangulation on doubles with grid coordinates

Modelled: `ear_triangulate` (EarTriangulationGenerator.cpp:40-53), `ear_loop` (EarTriangulationGenerator.cpp:44-50), `triangle` (delynoi/include/delynoi/models/polygon/Triangle.h:12-19), `geo_area` (delynoi/src/utilities/geometryFunctions.cpp:29-39).

Proof: Simulation: the run on doubles and the run on the reals take the same branches; areas exact by C74.

* `C77_ear_triangulation_exact` (T_Grid.v; axioms: classic, funext, sig_forall_dec, sig_not_dec) — ear triangulation.

### C78 Segment intersection on doubles: sound, complete and accurate

Modelled: `intersects` (Segment.cpp:48-71), `intersectionInfinite` (Segment.cpp:74-96).

Proof: Numerators and denominator are exact; the rounded quotients are monotone images of the exact parameters; forward error bounds for the coordinates.

* `C78_intersection_on_doubles` (T_Grid.v; axioms: classic, funext, sig_forall_dec, sig_not_dec) — segment intersection.
* `C78_infinite_on_doubles` (T_Grid.v; axioms: classic, funext, sig_forall_dec, sig_not_dec)

### C79 isSelfIntersecting and mutate on doubles

Modelled: `isSelfIntersecting` (Polygon.cpp:291-311), `region` (delynoi/include/delynoi/models/Region.h:21-36), `region_mutate` (Region.cpp:7-10), `trivialIndex` (delynoi_utilities.cpp:10-14).

Proof: C18 (all number systems) with C78; exactness because the parameters are quotients of integers below 2^(2m+3), so no parameter lies strictly between -2 tol and 0 or 1 and 1 + 2 tol.

* `C79_selfintersection_on_doubles` (T_Grid.v; axioms: classic, funext, sig_forall_dec, sig_not_dec) — self-intersection and mutate.
* `C79_mutate_on_doubles` (T_Grid.v; axioms: classic, funext, sig_forall_dec, sig_not_dec)

### C80 Point order and unique point lists are exact on doubles with grid coordinates

Modelled: `pt_ltb` (Point.cpp:64-75), `pt_eqb` (Point.cpp:36-41), `ul_run` (UniqueList.h:37-164), `ul_contains` (UniqueList.h:122-126), `ul_push_back` (UniqueList.h:46-58).

Proof: Differences of grid points are zero or at least the spacing, so the tolerance tests decide equality; then C01.

* `C80_point_order_exact` (T_Grid.v; axioms: classic, funext, sig_forall_dec, sig_not_dec) — the order of points and unique lists of points.
* `C80_unique_list_of_points` (T_Grid.v; axioms: classic, funext, sig_forall_dec, sig_not_dec)

### C81 Point order, unique lists and point maps work on doubles that are clearly close or clearly apart

Modelled: `pt_ltb` (Point.cpp:64-75), `pt_eqb` (Point.cpp:36-41), `ul_run` (UniqueList.h:37-164), `ul_contains` (UniqueList.h:122-126), `pm_op` (PointMap.cpp:5-31), `pm_get` (PointMap.cpp:29-31), `pm_run` (PointMap.cpp:3-31), `pm_size` (PointMap.cpp:37-39).

Proof: The rounded difference is below the rounded tolerance exactly when the real one is, by the factor-two gap; the container proofs of C01, C05 and C10 are generic in the order.

* `C81_order_on_doubles` (T_Pipe64.v; axioms: classic, funext, sig_forall_dec, sig_not_dec) — containers of points on doubles any two of which are clearly close or clearly apart.
* `C81_unique_list_on_doubles` (T_Pipe64.v; axioms: classic, funext, sig_forall_dec, sig_not_dec)
* `C81_point_map_on_doubles` (T_Pipe64.v; axioms: classic, funext, sig_forall_dec, sig_not_dec)
* `C81_grids_qualify` (T_Pipe64.v; axioms: funext, sig_forall_dec) — every grid whose step is at least the tolerance qualifies

### C82 The planar graph is right on doubles

Modelled: `region` (delynoi/include/delynoi/models/Region.h:21-36), `pseg` (PointSegment.cpp:3), `getRegionPoints` (Region.cpp:159-169), `build_pslg` (TriangleDelaunayGenerator.cpp:20-66), `hole` (delynoi/include/delynoi/models/hole/Hole.h:12-42).

Proof: The proof of C49 is generic in the number system and the coincidence relation; instance by C81.

* `C82_planar_graph_on_doubles` (T_Pipe64.v; axioms: classic, funext, sig_forall_dec, sig_not_dec) — the planar graph handed to the triangulator.

### C83 The circumcenter of a triangle of doubles is the correctly rounded one

Modelled: `circumcenter` (delynoi/src/models/polygon/Triangle.cpp:29-40).

Proof: Numerators and denominator are integers below 2^53 in units of a power of two, hence exact; one correctly rounded division per coordinate.

* `C83_circumcenter_is_nearest` (T_Pipe64.v; axioms: classic, funext, sig_forall_dec, sig_not_dec) — circumcenters.
* `C83_flat_triangles_only` (T_Pipe64.v; axioms: classic, funext, sig_forall_dec, sig_not_dec) — on the wider grid: finite exactly when the triangle is not flat

### C84 Reading the triangulator's answer and building the mesh work on doubles

Modelled: `trout` (TriangleDelaunayGenerator.cpp:82-116), `read_point` (TriangleDelaunayGenerator.cpp:82-89), `read_output` (TriangleDelaunayGenerator.cpp:82-124), `delaunay` (TriangleDelaunayGenerator.h:23-41), `initializeMesh` (TriangleDelaunayGenerator.h:94-116), `polygon_ctor_idx` (Polygon.cpp:8-19), `triangle_ctor` (Triangle.cpp:6-8), `polygon` (delynoi/include/delynoi/models/polygon/Polygon.h:25-32,197), `triangle` (delynoi/include/delynoi/models/polygon/Triangle.h:12-19), `pm_get` (PointMap.cpp:29-31), `pt_eqb` (Point.cpp:36-41).

Proof: The proofs of C50 and C52 are generic; instance by C81 and C83.

* `C84_output_is_read_on_doubles` (T_Pipe64.v; axioms: classic, funext, sig_forall_dec, sig_not_dec) — reading the triangulator's answer and building the mesh.
* `C84_mesh_on_doubles` (T_Pipe64.v; axioms: classic, funext, sig_forall_dec, sig_not_dec)
* `C84_coinciding_points_on_doubles` (T_Pipe64.v; axioms: classic, funext, sig_forall_dec, sig_not_dec)

### C85 The Voronoi cell of an inner point is its Voronoi region

Modelled: `trout` (TriangleDelaunayGenerator.cpp:82-116), `delaunay` (TriangleDelaunayGenerator.h:23-41), `read_output` (TriangleDelaunayGenerator.cpp:82-124), `voronoi` (DelaunayToVoronoi.cpp:3-105), `polygon` (delynoi/include/delynoi/models/polygon/Polygon.h:25-32,197), `read_point` (TriangleDelaunayGenerator.cpp:82-89).

Proof: The fan of a site turns one way because no directed side is used twice; bisector normals around the cell cover all directions, each pair having a common circumcenter, so the half-planes of the region bound it by the hull; conversely regions are convex. Built on C65.

* `C85_inner_cells_are_regions` (T_VorCell.v; axioms: funext, sig_forall_dec, sig_not_dec)
* `C85_inner_cells_exactly` (T_VorCell.v; axioms: funext, sig_forall_dec, sig_not_dec)

### C86 The Voronoi cell of a border point is its region cut by the corner

Modelled: `trout` (TriangleDelaunayGenerator.cpp:82-116), `delaunay` (TriangleDelaunayGenerator.h:23-41), `read_output` (TriangleDelaunayGenerator.cpp:82-124), `voronoi` (DelaunayToVoronoi.cpp:3-105), `polygon` (delynoi/include/delynoi/models/polygon/Polygon.h:25-32,197), `read_point` (TriangleDelaunayGenerator.cpp:82-89).

Proof: As C85, with the normals completed by the two outer edges turned by a right angle.

* `C86_border_cells` (T_VorCell.v; axioms: funext, sig_forall_dec, sig_not_dec)

### C87 Voronoi cells stay inside the triangulated domain

Modelled: `trout` (TriangleDelaunayGenerator.cpp:82-116), `delaunay` (TriangleDelaunayGenerator.h:23-41), `mesh` (delynoi/include/delynoi/models/Mesh.h:15-33), `polygon` (delynoi/include/delynoi/models/polygon/Polygon.h:25-32,197), `read_output` (TriangleDelaunayGenerator.cpp:82-124), `read_point` (TriangleDelaunayGenerator.cpp:82-89), `voronoi` (DelaunayToVoronoi.cpp:3-105).

Proof: Barycentric coordinates of the circumcenter are non-negative without obtuse angles; the counterexample has the circumcenter (4, -11/4) below the rectangle.

* `C87_nonobtuse_cells_stay_inside` (T_VorCell.v; axioms: funext, sig_forall_dec, sig_not_dec)
* `C87_cells_inside_refuted` (T_VorCell.v; axioms: funext, sig_forall_dec, sig_not_dec) — with an obtuse triangle at the border a cell leaves the triangulated rectangle

### C88 Voronoi edges are dual to the inner edges of the triangulation

Modelled: `trout` (TriangleDelaunayGenerator.cpp:82-116), `read_output` (TriangleDelaunayGenerator.cpp:82-124), `voronoi` (DelaunayToVoronoi.cpp:3-105), `um_find` (SegmentMap.cpp:7), `iseg_match` (mapdata.h:43-50).

Proof: Two triangles with a common side at a site are next to each other in its fan, so both cells register the segment; a cell that registers it has both triangles around its site, because an index equal to one of a circumcenter can only come from that triangle; the segment map then holds both numbers. Built on C65 and C11.

* `C88_dual_edges` (T_VorCell.v; axioms: closed)
* `C88_sources_apart` (T_VorCell.v; axioms: funext, sig_forall_dec, sig_not_dec) — over the reals the sources are distinct when they are more than twice the tolerance apart

### C89 Debug files say what the structures hold

Modelled: `sm_op` (SegmentMap.cpp:6-23), `sm_run` (SegmentMap.cpp:4-23), `segmap_print` (delynoi/src/models/neighbourhood/SegmentMap.cpp:37-50), `sm_size` (SegmentMap.cpp:33-35), `field` (delynoi/include/delynoi/voronoi/lib/triangle.h:257-286), `pmap` (PointMap.h:19), `pointmap_print` (PointMap.cpp:41-61), `region` (delynoi/include/delynoi/models/Region.h:21-36), `build_pslg` (TriangleDelaunayGenerator.cpp:20-66), `ul_push_list` (UniqueList.h:100-120), `pt_ltb` (Point.cpp:64-75), `ul_empty` (UniqueList.h:36-37), `getRegionPoints` (Region.cpp:159-169), `writeTriangleInputFile` (delynoi/src/voronoi/TriangleDelaunayGenerator.cpp:154-185), `edge_string` (delynoi/src/models/neighbourhood/EdgeData.cpp:19-21), `nb_string` (delynoi/src/models/neighbourhood/NeighboursBySegment.cpp:31-33), `pseg` (PointSegment.cpp:3), `pseg_string` (delynoi/src/models/basic/PointSegment.cpp:15-17).

Proof: Keys of a segment map stay distinct as unordered pairs, so entries and abstract map agree (C08); lines are joined fields, and decimal texts determine their numbers.

* `C89_segment_map_file` (T_Dump.v; axioms: closed) — the file of a segment map, for every history and every iteration order [es]
* `C89_texts_determine_numbers` (T_Dump.v; axioms: closed) — the numbers are determined by the texts
* `C89_point_map_file` (T_Dump.v; axioms: closed) — the file of a point map: coordinates and neighbours of every point, in the order of the map
* `C89_triangle_input_file` (T_Dump.v; axioms: closed) — the input file for Triangle describes the graph handed to Triangle, without the restricted segments
* `C89_edge_text` (T_Dump.v; axioms: closed) — the text of an edge lists its two points, that of a pair of neighbours the two cells
* `C89_neighbours_text` (T_Dump.v; axioms: closed)
* `C89_point_segment_text` (T_Dump.v; axioms: closed) — the text of a segment of points lists the four coordinates

### C90 Triangles built with a vector of circumcenters own consecutive entries

Modelled: `triangles_vec` (Triangle.cpp:15-19), `circumcenter` (delynoi/src/models/polygon/Triangle.cpp:29-40), `triangle_ctor` (Triangle.cpp:6-8), `triangle_isNull` (delynoi/src/models/polygon/Triangle.cpp:67-69).

Proof: Induction on the list of triangles.

* `C90_circumcenter_vector` (T_Dump.v; axioms: closed) — triangles built one after the other with a vector of circumcenters
* `C90_built_triangles_are_not_null` (T_Dump.v; axioms: closed)

### C91 Voronoi cells are counterclockwise, inner ones strictly convex

Modelled: `trout` (TriangleDelaunayGenerator.cpp:82-116), `delaunay` (TriangleDelaunayGenerator.h:23-41), `mesh` (delynoi/include/delynoi/models/Mesh.h:15-33), `polygon` (delynoi/include/delynoi/models/polygon/Polygon.h:25-32,197), `read_output` (TriangleDelaunayGenerator.cpp:82-124), `voronoi` (DelaunayToVoronoi.cpp:3-105).

Proof: Orientation: build_cell ends with fixCCW and later cells only append points. Convexity: the step between the centers of consecutive triangles has the whole Voronoi region on its left, every center is an exposed point of the region, and the centers lie on all sides of the site; a closed chain of exposed points with all points on the left of its edges is strictly convex after dropping repetitions. Storing a center once is derived from the set invariant of C04/C05 when the tolerance is transitive on the centers.

* `C91_cells_not_clockwise` (T_VorConvex.v; axioms: funext, sig_forall_dec, sig_not_dec)
* `C91_inner_cells_convex` (T_VorConvex.v; axioms: funext, sig_forall_dec, sig_not_dec)

### C92 containsPoint on an inner Voronoi cell answers nearest-site queries

Modelled: `trout` (TriangleDelaunayGenerator.cpp:82-116), `delaunay` (TriangleDelaunayGenerator.h:23-41), `read_output` (TriangleDelaunayGenerator.cpp:82-124), `voronoi` (DelaunayToVoronoi.cpp:3-105), `polygon` (delynoi/include/delynoi/models/polygon/Polygon.h:25-32,197), `read_point` (TriangleDelaunayGenerator.cpp:82-89), `containsPoint` (Polygon.cpp:147-174).

Proof: C85 (cell = region), C91 and C22_convex; a point strictly nearer to the site can be moved a little in every direction without leaving the region, and a point left of all edges of a convex polygon is in its hull.

* `C92_nearest_site` (T_VorConvex.v; axioms: funext, sig_forall_dec, sig_not_dec)

### C93 Voronoi cells at convex corners of the border are convex and are the region cut at the border

Modelled: `trout` (TriangleDelaunayGenerator.cpp:82-116), `delaunay` (TriangleDelaunayGenerator.h:23-41), `read_output` (TriangleDelaunayGenerator.cpp:82-124), `voronoi` (DelaunayToVoronoi.cpp:3-105), `polygon` (delynoi/include/delynoi/models/polygon/Polygon.h:25-32,197), `read_point` (TriangleDelaunayGenerator.cpp:82-89).

Proof: The points of the cell are stored exactly because the container invariant of C04 is carried through the construction of all cells. The step from the middle of the first edge to the first center, the steps between centers and the last step have the region on their left (the middles are in the region because of the empty circles); middles and centers are exposed points of region and wedge, and so is the site unless the corner is straight; the chain lemma of C91 then gives convexity, and the hull argument of C86 the equality with region and wedge. The witness of the refutation is the 8 by 6 rectangle with the inner site (3, 2).

* `C93_border_cells_convex` (T_VorBorder.v; axioms: funext, sig_forall_dec, sig_not_dec)
* `C93_wide_edges_refuted` (T_VorBorder.v; axioms: funext, sig_forall_dec, sig_not_dec) — without the empty diametral circles the cell may cross itself

### C94 containsPoint on a Voronoi cell at the border answers nearest-site queries

Modelled: `trout` (TriangleDelaunayGenerator.cpp:82-116), `delaunay` (TriangleDelaunayGenerator.h:23-41), `read_output` (TriangleDelaunayGenerator.cpp:82-124), `voronoi` (DelaunayToVoronoi.cpp:3-105), `polygon` (delynoi/include/delynoi/models/polygon/Polygon.h:25-32,197), `read_point` (TriangleDelaunayGenerator.cpp:82-89), `containsPoint` (Polygon.cpp:147-174).

Proof: C93 and C22_convex; a point strictly nearer to the site and strictly inside the corner can be moved a little in every direction.

* `C94_nearest_corner_site` (T_VorBorder.v; axioms: funext, sig_forall_dec, sig_not_dec)

### C95 The point map of a Voronoi diagram lists at every vertex the cells that use it

Modelled: `trout` (TriangleDelaunayGenerator.cpp:82-116), `delaunay` (TriangleDelaunayGenerator.h:23-41), `mesh` (delynoi/include/delynoi/models/Mesh.h:15-33), `polygon` (delynoi/include/delynoi/models/polygon/Polygon.h:25-32,197), `read_output` (TriangleDelaunayGenerator.cpp:82-124), `voronoi` (DelaunayToVoronoi.cpp:3-105), `pm_get` (PointMap.cpp:29-31).

Proof: The log of all insertions into the point map is carried through the construction of the cells (each cell registers both ends of each of its edges under its own number); the abstract map of C10 turns the log into lists, and an index stands for a point up to the tolerance, which is transitive on the sources (C07/C08, on doubles through clusters). Duplicates by computation on a square.

* `C95_cells_at_a_vertex` (T_VorMap.v; axioms: funext, sig_forall_dec, sig_not_dec)
* `C95_cells_at_a_vertex_doubles` (T_VorMap.v; axioms: classic, funext, sig_forall_dec, sig_not_dec)
* `C95_once_refuted` (T_VorMap.v; axioms: closed) — but a cell may be listed several times at one vertex

### C96 Histories of a region

Modelled: `region_op` (Region.h:45-120), `region` (delynoi/include/delynoi/models/Region.h:21-36), `region_run` (Region.cpp:7-195).

Proof: Simulation: every call is matched by a step of an abstract plan (outline, holes, seeds) that does not mention the model; filters are compared through C36 (containment in the domain).

* `C96_region_histories` (T_Hist.v; axioms: funext, sig_forall_dec, sig_not_dec)
* `C96_only_generation_fails` (T_Hist.v; axioms: funext, sig_forall_dec, sig_not_dec)

### C97 The Voronoi generator, end to end

Modelled: `switches` (TriangleDelaunayGenerator.cpp:146,188,197,207), `pslg` (delynoi/src/voronoi/TriangleDelaunayGenerator.cpp:25-68), `trout` (TriangleDelaunayGenerator.cpp:82-116), `region` (delynoi/include/delynoi/models/Region.h:21-36), `getRegionPoints` (Region.cpp:159-169), `build_pslg` (TriangleDelaunayGenerator.cpp:20-66), `region_copy` (Region.cpp:25-28), `voronoiGenerator` (delynoi/src/voronoi/TriangleVoronoiGenerator.cpp:5-11), `read_point` (TriangleDelaunayGenerator.cpp:82-89), `polygon` (delynoi/include/delynoi/models/polygon/Polygon.h:25-32,197).

Proof: Composition of C49 (the graph handed over), C50 (reading the answer), C65 (totality of the construction) and C85 (cells are regions); the switches are visible because the triangulator is a parameter applied to them.

* `C97_generator` (T_Hist.v; axioms: funext, sig_forall_dec, sig_not_dec)

### C98 Files: printing regions and reading seeds and meshes by name

Modelled: `field` (delynoi/include/delynoi/voronoi/lib/triangle.h:257-286), `file_op` (Region.cpp:97-114, 197-227), `disk` (lib/utilities/src/utilities.cpp:90), `region` (delynoi/include/delynoi/models/Region.h:21-36), `slash` (utilities.cpp:40), `file_run` (Region.cpp:97-114, 197-227), `region_print` (Region.cpp:197-227), `file_do` (Region.cpp:97-114, 197-227), `getRegionPoints` (Region.cpp:159-169), `mesh_printInFile` (Mesh.h:203-214), `createFromFile` (delynoi/include/delynoi/models/Mesh.h:159-165), `polygon_ctor_idx` (Polygon.cpp:8-19), `mesh_new` (Mesh.h:129-132), `pt_ltb` (Point.cpp:64-75), `unlines` (Mesh.h:232-248), `print_int` (utilities.h:12-20), `point_string` (delynoi/src/models/basic/Point.cpp:28-30), `polygon_string` (Polygon.cpp:246-254), `mesh` (delynoi/include/delynoi/models/Mesh.h:15-33), `polygon` (delynoi/include/delynoi/models/polygon/Polygon.h:25-32,197), `pmap` (PointMap.h:19), `pointmap_printInFile` (delynoi/src/models/neighbourhood/PointMap.cpp:41-61), `sm_op` (SegmentMap.cpp:6-23), `sm_run` (SegmentMap.cpp:4-23), `segmap_printInFile` (delynoi/src/models/neighbourhood/SegmentMap.cpp:37-50), `sm_size` (SegmentMap.cpp:33-35).

Proof: Simulation between the disk (texts under paths) and an abstract store of point lists, carried through the history; what printing and reading makes of a list of points is C70. Totality of every call under the same hypotheses.

* `C98_file_histories` (T_File.v; axioms: closed) — regions printed to and seeds read from the files of one directory.
* `C98_calls_succeed` (T_File.v; axioms: closed)
* `C98_home_unset` (T_File.v; axioms: closed)
* `C98_mesh_through_a_file` (T_File.v; axioms: closed)
* `C98_mesh_files_are_read` (T_File.v; axioms: closed)
* `C98_map_files` (T_File.v; axioms: closed)

### C99 Random functors: range of the draws and use by the generator

Modelled: `random_integer_bounds` (delynoi/src/models/generator/functions/RandomInteger.cpp:6-10), `random_double_bounds` (delynoi/src/models/generator/functions/RandomDouble.cpp:6-14), `bbox` (BoundingBox.cpp:3-6), `generate` (PointGenerator.cpp:27-39), `random_double` (RandomDouble.cpp:12-14), `random_integer` (RandomInteger.cpp:12-14).

Proof: Truncation of a double is characterised against its real value (mantissa times a power of two, floor of the quotient for negative exponents); the generator part by induction on the nodes.

* `C99_random_integers` (T_File.v; axioms: funext, sig_forall_dec, sig_not_dec) — what a random integer functor draws.
* `C99_random_integers_on_doubles` (T_File.v; axioms: funext, sig_forall_dec)
* `C99_random_doubles` (T_File.v; axioms: classic, funext, sig_forall_dec, sig_not_dec)
* `C99_outside_the_bounds_refuted` (T_File.v; axioms: closed) — between one half and three quarters only zero is drawn; between minus three quarters and minus one half too
* `C99_random_points` (T_File.v; axioms: closed)
* `C99_random_integer_points` (T_File.v; axioms: closed)

### C100 Inner Voronoi cells computed on doubles

Modelled: `trout` (TriangleDelaunayGenerator.cpp:82-116), `read_point` (TriangleDelaunayGenerator.cpp:82-89), `read_output` (TriangleDelaunayGenerator.cpp:82-124), `voronoi` (DelaunayToVoronoi.cpp:3-105), `polygon` (delynoi/include/delynoi/models/polygon/Polygon.h:25-32,197).

Proof: The computed circumcenter is the rounded exact one (C83); the answer is read as an output over the reals with the same indices, to which the region and convexity theorems (C85, C91) apply with lists of exact points chosen per stored index. The near form needs no separation: the computed order never takes points for equal that are not within the tolerance.

* `C100_inner_cells_on_doubles` (T_Vor64.v; axioms: classic, funext, sig_forall_dec, sig_not_dec)
* `C100_inner_cells_exactly_on_doubles` (T_Vor64.v; axioms: classic, funext, sig_forall_dec, sig_not_dec)

### C101 Border Voronoi cells computed on doubles

Modelled: `trout` (TriangleDelaunayGenerator.cpp:82-116), `read_point` (TriangleDelaunayGenerator.cpp:82-89), `read_output` (TriangleDelaunayGenerator.cpp:82-124), `voronoi` (DelaunayToVoronoi.cpp:3-105), `polygon` (delynoi/include/delynoi/models/polygon/Polygon.h:25-32,197).

Proof: As C100, with the exact points chosen for every stored index (every stored point is a rounded true point, by the container invariant on clusters); middles of grid points and the collinearity test on them are exact, so the abstract form of C93 applies.

* `C101_border_cells_on_doubles` (T_Vor64.v; axioms: classic, funext, sig_forall_dec, sig_not_dec)

### C102 Boxes, lengths and turns on doubles

Modelled: `bbox` (BoundingBox.cpp:3-6), `bb_xMin` (BoundingBox.cpp:24-26), `bb_xMax` (BoundingBox.cpp:32-34), `bb_yMin` (BoundingBox.cpp:28-30), `bb_yMax` (BoundingBox.cpp:36-38), `bb_width` (BoundingBox.cpp:16-38), `bb_height` (BoundingBox.cpp:20-22), `bb_contains` (BoundingBox.cpp:55-57), `region` (delynoi/include/delynoi/models/Region.h:21-36), `getBox` (Region.cpp:116-130), `seg_length` (Segment.cpp:98-101), `iseg_middle` (IndexSegment.cpp:24-26), `iseg_length` (IndexSegment.cpp:72-74), `getMaxDistance` (Polygon.cpp:338-351), `iseg_isCCW` (IndexSegment.cpp:48-53), `iseg_orderCCW` (IndexSegment.cpp:40-46).

Proof: Comparisons of finite doubles are comparisons of their values; the difference of two bounded doubles is the correctly rounded one (Flocq), symmetric under exchange; getBox by relating its fold to the fold over the reals. Lengths: squares of grid differences are exact, so one rounding remains, that of the square root.

* `C102_bounding_box_on_doubles` (T_Grid2.v; axioms: classic, funext, sig_forall_dec, sig_not_dec)
* `C102_region_box_on_doubles` (T_Grid2.v; axioms: classic, funext, sig_forall_dec, sig_not_dec)
* `C102_length_on_doubles` (T_Grid2.v; axioms: classic, funext, sig_forall_dec, sig_not_dec)
* `C102_middle_on_doubles` (T_Grid2.v; axioms: classic, funext, sig_forall_dec, sig_not_dec)
* `C102_longest_edge_on_doubles` (T_Grid2.v; axioms: classic, funext, sig_forall_dec, sig_not_dec)
* `C102_turn_on_doubles` (T_Grid2.v; axioms: classic, funext, sig_forall_dec, sig_not_dec)

### C103 Segment tests on doubles

Modelled: `seg_contains` (Segment.cpp:22-33), `pseg` (PointSegment.cpp:3), `iseg_isContained` (IndexSegment.cpp:76-78), `iseg_contains_seg` (delynoi/src/models/basic/IndexSegment.cpp:20-22), `collinear_segs` (delynoi/src/utilities/geometryFunctions.cpp:20-23), `pseg_eqb` (PointSegment.cpp:23-26), `containerEdge` (Polygon.cpp:176-187), `inEdges` (Polygon.cpp:189-193).

Proof: The test over the doubles is computed exactly on grids (C74), so it equals the test over the reals, whose meaning is convexity of the near-segment set (C68); bounds widened by the tolerance are compared through monotonicity of rounding.

* `C103_segment_contains_on_doubles` (T_Grid2.v; axioms: classic, funext, sig_forall_dec, sig_not_dec)
* `C103_contained_in_point_segment_on_doubles` (T_Grid2.v; axioms: classic, funext, sig_forall_dec, sig_not_dec)
* `C103_contains_segment_on_doubles` (T_Grid2.v; axioms: classic, funext, sig_forall_dec, sig_not_dec)
* `C103_collinear_segments_on_doubles` (T_Grid2.v; axioms: classic, funext, sig_forall_dec, sig_not_dec)
* `C103_equal_segments_on_doubles` (T_Grid2.v; axioms: classic, funext, sig_forall_dec, sig_not_dec)
* `C103_container_edge_on_doubles` (T_Grid2.v; axioms: classic, funext, sig_forall_dec, sig_not_dec)

### C104 Regions, seeds and their histories on doubles

Modelled: `region` (delynoi/include/delynoi/models/Region.h:21-36), `region_containsPoint` (Region.cpp:181-185), `region_inEdges` (Region.cpp:187-191), `addSeedPoints` (Region.cpp:92-95), `with_seeds` (Region.cpp:86-114), `addSeedsRead` (Region.cpp:97-114), `getBox` (Region.cpp:116-130), `bb_xMin` (BoundingBox.cpp:24-26), `bb_xMax` (BoundingBox.cpp:32-34), `bb_yMin` (BoundingBox.cpp:28-30), `bb_yMax` (BoundingBox.cpp:36-38), `f_constant` (delynoi/src/models/generator/functions/functions.cpp:7-21), `generateSeedPoints` (Region.cpp:86-90), `region_op` (Region.h:45-120), `region_run` (Region.cpp:7-195).

Proof: containsPoint of the outline and of each hole is exact on grids (C76), hence the filter of cleanSeeds is the specification filter; histories by the simulation of C96, with the exactness of the filter at every step at which outline, holes and offered points lie on a grid. Generated seeds: C105 (exact form) and the box of C102.

* `C104_region_contains_on_doubles` (T_Grid2.v; axioms: classic, funext, sig_forall_dec, sig_not_dec)
* `C104_domain_on_doubles` (T_Grid2.v; axioms: classic, funext, sig_forall_dec, sig_not_dec)
* `C104_seeding_on_doubles` (T_Grid2.v; axioms: classic, funext, sig_forall_dec, sig_not_dec)
* `C104_generated_seeds_on_doubles` (T_Grid2.v; axioms: classic, funext, sig_forall_dec, sig_not_dec)
* `C104_histories_on_doubles` (T_Grid2.v; axioms: classic, funext, sig_forall_dec, sig_not_dec)

### C105 Generated points on doubles

Modelled: `bbox` (BoundingBox.cpp:3-6), `f_constant` (delynoi/src/models/generator/functions/functions.cpp:7-21), `bb_xMin` (BoundingBox.cpp:24-26), `bb_xMax` (BoundingBox.cpp:32-34), `bb_yMin` (BoundingBox.cpp:28-30), `bb_yMax` (BoundingBox.cpp:36-38), `generate` (PointGenerator.cpp:27-39), `generator` (delynoi/src/models/generator/PointGenerator.cpp:5-25), `bb_contains` (BoundingBox.cpp:55-57).

Proof: Rounding errors of the four operations per coordinate are bounded with the standard model of floating-point arithmetic (relative error 2^-53 plus 2^-1075); in the exact form every intermediate value is an integer below 2^53 times the grid step. Witness by computation.

* `C105_nodes_close_on_doubles` (T_Grid2.v; axioms: classic, funext, sig_forall_dec, sig_not_dec)
* `C105_nodes_exact_on_doubles` (T_Grid2.v; axioms: classic, funext, sig_forall_dec, sig_not_dec)
* `C105_refuted` (T_Grid2.v; axioms: classic, funext, sig_forall_dec, sig_not_dec) — the last column of 26 constant points of the box from (0, 0) to (7, 7) lies outside the box

### C106 Adding holes on doubles

Modelled: `config` (delynoi/include/delynoi/config/DelynoiConfig.h:9-27), `region` (delynoi/include/delynoi/models/Region.h:21-36), `hole` (delynoi/include/delynoi/models/hole/Hole.h:12-42), `addHole` (Region.cpp:38-80), `trivialIndex` (delynoi_utilities.cpp:10-14), `region_containsPoint` (Region.cpp:181-185).

Proof: Overflow and non-finite products are excluded or lead to undefined behaviour by case analysis on the IEEE product (Flocq); truncation from C99; crossing by C17.

* `C106_add_hole_on_doubles` (T_Grid2.v; axioms: classic, funext, sig_forall_dec, sig_not_dec) — addHole
* `C106_out_of_range_on_doubles` (T_Grid2.v; axioms: classic, funext, sig_forall_dec, sig_not_dec)

### C107 The Voronoi generator on doubles, end to end

Modelled: `switches` (TriangleDelaunayGenerator.cpp:146,188,197,207), `pslg` (delynoi/src/voronoi/TriangleDelaunayGenerator.cpp:25-68), `trout` (TriangleDelaunayGenerator.cpp:82-116), `region` (delynoi/include/delynoi/models/Region.h:21-36), `getRegionPoints` (Region.cpp:159-169), `build_pslg` (TriangleDelaunayGenerator.cpp:20-66), `region_copy` (Region.cpp:25-28), `voronoiGenerator` (delynoi/src/voronoi/TriangleVoronoiGenerator.cpp:5-11), `read_point` (TriangleDelaunayGenerator.cpp:82-89), `polygon` (delynoi/include/delynoi/models/polygon/Polygon.h:25-32,197).

Proof: Composition of C82 (the graph on doubles), C84 (reading of the answer), and C100/C101 (cells).

* `C107_generator_on_doubles` (T_Hist64.v; axioms: classic, funext, sig_forall_dec, sig_not_dec)

### C108 Center triangulation on doubles

Modelled: `center_triangulate` (delynoi/src/triangulation/CenterTriangulationGenerator.cpp:3-24).

Proof: Sums of at most 1024 grid doubles are exact, so the quotient is the correctly rounded average; the exact average lies inside every edge line by at least a grid step divided by the vertex count, and the rounding error is smaller. The refusal by the exactness of the turn test on grids (C74).

* `C108_center_triangulation_on_doubles` (T_Hist64.v; axioms: classic, funext, sig_forall_dec, sig_not_dec)

### C109 The documented programs, from the domain to the files

Modelled: `switches` (TriangleDelaunayGenerator.cpp:146,188,197,207), `pslg` (delynoi/src/voronoi/TriangleDelaunayGenerator.cpp:25-68), `trout` (TriangleDelaunayGenerator.cpp:82-116), `disk` (lib/utilities/src/utilities.cpp:90), `region_op` (Region.h:45-120), `region` (delynoi/include/delynoi/models/Region.h:21-36), `region_ctor` (Region.cpp:3-5), `region_run` (Region.cpp:7-195), `getRegionPoints` (Region.cpp:159-169), `slash` (utilities.cpp:40), `build_pslg` (TriangleDelaunayGenerator.cpp:20-66), `region_copy` (Region.cpp:25-28), `mesh_program` (test/LShapeTestMain.cpp:11-15), `print_double` (utilities.h:12-20), `voronoiGenerator` (delynoi/src/voronoi/TriangleVoronoiGenerator.cpp:5-11), `um_find` (SegmentMap.cpp:7), `iseg_eqb` (IndexSegment.cpp:59-62), `polygon` (delynoi/include/delynoi/models/polygon/Polygon.h:25-32,197), `read_point` (TriangleDelaunayGenerator.cpp:82-89), `triangulation_program` (test/SimpleSquareTestMain.cpp:13, 16, 18), `square_program` (test/SimpleSquareTestMain.cpp:7-21).

Proof: Composition of the histories of regions on doubles (C104), C107, and the file model (C98); the keys of the edge map of the Voronoi mesh have no repetition because the map is a history of insertions (C09), those of the triangulation are the edges of the answer in order because no edge is listed twice; the text is cut into lines and fields as in C70. Indices below 10^6 are required where the file lists them, since the code prints indices as doubles with six digits.

* `C109_voronoi_program` (T_Program.v; axioms: classic, funext, sig_forall_dec, sig_not_dec)
* `C109_triangulation_program` (T_Program.v; axioms: classic, funext, sig_forall_dec, sig_not_dec)
* `C109_square_program` (T_Program.v; axioms: classic, funext, sig_forall_dec, sig_not_dec)

### C110 The Voronoi cells tile a convex domain

Modelled: `trout` (TriangleDelaunayGenerator.cpp:82-116), `delaunay` (TriangleDelaunayGenerator.h:23-41), `read_output` (TriangleDelaunayGenerator.cpp:82-124), `voronoi` (DelaunayToVoronoi.cpp:3-105), `polygon` (delynoi/include/delynoi/models/polygon/Polygon.h:25-32,197), `read_point` (TriangleDelaunayGenerator.cpp:82-89), `getArea` (Polygon.cpp:82-88).

Proof: Cells from C91/C93. A point of a corner or border cell cannot lie beyond any other border edge: the part of the plane beyond a border edge without sites in its circle is nearest to the two ends of that edge (gabriel_cap), so the wedge of the two adjacent border edges suffices; the hull of the sites is the intersection of the wedges, by a walk along the border. Areas: each cell area is the sum over its triangles of the area of the quadrilateral site, middle, circumcenter, middle (signed); exchanged sums give twice the area of each triangle.

* `C110_cells_are_regions_of_domain` (T_Tile.v; axioms: classic, funext, sig_forall_dec, sig_not_dec)
* `C110_cells_tile_domain` (T_Tile.v; axioms: classic, funext, sig_forall_dec, sig_not_dec)
* `C110_areas_add_up` (T_Tile.v; axioms: classic, funext, sig_forall_dec, sig_not_dec)

### C111 The Voronoi generator tiles a convex region

Modelled: `region` (delynoi/include/delynoi/models/Region.h:21-36), `build_pslg` (TriangleDelaunayGenerator.cpp:20-66), `region_copy` (Region.cpp:25-28), `voronoiGenerator` (delynoi/src/voronoi/TriangleVoronoiGenerator.cpp:5-11), `read_point` (TriangleDelaunayGenerator.cpp:82-89), `polygon` (delynoi/include/delynoi/models/polygon/Polygon.h:25-32,197), `getArea` (Polygon.cpp:82-88).

Proof: Composition of C83 (the graph), C84 (reading of the answer) and C110. That the border walk of the answer is the outline with points strung on its edges gives convex or flat border corners and the equality of the hull of the sites with the outline; the area of the triangles is the sum over the border sides of half the cross product (inner sides cancel in pairs), which telescopes along each edge of the outline to its shoelace area. What the external library Triangle guarantees is a hypothesis here (record fills): with the switch D it splits border segments until no vertex is in their circles.

* `C111_generator_tiles_convex_region` (T_Fill.v; axioms: classic, funext, sig_forall_dec, sig_not_dec)

### C112 The Voronoi cells of a region of any shape, with reflex corners and holes, do not overlap and their areas add up

Modelled: `trout` (TriangleDelaunayGenerator.cpp:82-116), `delaunay` (TriangleDelaunayGenerator.h:23-41), `read_output` (TriangleDelaunayGenerator.cpp:82-124), `voronoi` (DelaunayToVoronoi.cpp:3-105), `polygon` (delynoi/include/delynoi/models/polygon/Polygon.h:25-32,197), `read_point` (TriangleDelaunayGenerator.cpp:82-89), `getArea` (Polygon.cpp:82-88), `region` (delynoi/include/delynoi/models/Region.h:21-36), `hole` (delynoi/include/delynoi/models/hole/Hole.h:12-42), `getRegionPoints` (Region.cpp:159-169), `build_pslg` (TriangleDelaunayGenerator.cpp:20-66), `region_copy` (Region.cpp:25-28), `voronoiGenerator` (delynoi/src/voronoi/TriangleVoronoiGenerator.cpp:5-11).

Proof: The chain of circumcenters and edge midpoints of a border cell turns counterclockwise around its site at every step; that it never comes back to an index it left (which the removal of repeated indices would turn into a wrong cell) is shown by a ray into the outer sector at the site: a chain that closed would cross it, and the crossing point would be nearest to the site and to a neighbour beyond the Gabriel border sides. The area of each cell is then the sum of signed quadrilaterals (site, midpoint, circumcenter, midpoint), which add up to twice each triangle. Cells lie in the Voronoi regions of their sites because their corners do, so the insides are disjoint. For a region with holes, the triangle areas reduce to the border rings, which telescope along the outlines. Hypotheses on the external library Triangle are the records any_domain and fills_any (BridgeAny.v).

* `C112_cells_seen_from_sites` (T_Any.v; axioms: funext, sig_forall_dec, sig_not_dec)
* `C112_cells_do_not_overlap` (T_Any.v; axioms: funext, sig_forall_dec, sig_not_dec)
* `C112_areas_add_up_any_shape` (T_Any.v; axioms: funext, sig_forall_dec, sig_not_dec)
* `C112_generator_any_region` (T_Any.v; axioms: funext, sig_forall_dec, sig_not_dec)

### C113 The Voronoi cells of a region of any shape cover it and stay within it

Modelled: `trout` (TriangleDelaunayGenerator.cpp:82-116), `delaunay` (TriangleDelaunayGenerator.h:23-41), `read_output` (TriangleDelaunayGenerator.cpp:82-124), `voronoi` (DelaunayToVoronoi.cpp:3-105), `read_point` (TriangleDelaunayGenerator.cpp:82-89), `region` (delynoi/include/delynoi/models/Region.h:21-36), `hole` (delynoi/include/delynoi/models/hole/Hole.h:12-42), `getRegionPoints` (Region.cpp:159-169), `build_pslg` (TriangleDelaunayGenerator.cpp:20-66), `region_copy` (Region.cpp:25-28), `voronoiGenerator` (delynoi/src/voronoi/TriangleVoronoiGenerator.cpp:5-11).

Proof: Any quantity of directed steps that changes sign with the direction and adds up along lines (PWind.v: additive) sums over the border of a cell to the sum over its quadrilaterals (site, midpoint, circumcenter, midpoint), and over all cells to the sum over all triangles; the area is one such quantity. The signed crossing of the ray to the left of a point, with the half-open rule of the even-odd specification, is another (PWind2.v), it is not negative around counterclockwise triangles, positive only around triangles that contain the point, and at least one inside. So a point inside a triangle is surrounded by some cell, and a point inside a cell by some triangle; for points on borders a limit over finitely many closed triangles is taken. Along the outlines, points strung on the sides change nothing, so the sum is the sum of the winding numbers of the outlines, whose parity is the even-odd rule.

* `C113_cells_cover_triangles` (T_Wind.v; axioms: classic, funext, sig_forall_dec, sig_not_dec)
* `C113_cells_within_triangles` (T_Wind.v; axioms: classic, funext, sig_forall_dec, sig_not_dec)
* `C113_generator_covers_region` (T_Wind.v; axioms: funext, sig_forall_dec, sig_not_dec)

### C114 Polygon::containsPoint finds the Voronoi cell of a point

Modelled: `trout` (TriangleDelaunayGenerator.cpp:82-116), `delaunay` (TriangleDelaunayGenerator.h:23-41), `read_output` (TriangleDelaunayGenerator.cpp:82-124), `voronoi` (DelaunayToVoronoi.cpp:3-105), `polygon` (delynoi/include/delynoi/models/polygon/Polygon.h:25-32,197), `read_point` (TriangleDelaunayGenerator.cpp:82-89), `region` (delynoi/include/delynoi/models/Region.h:21-36), `hole` (delynoi/include/delynoi/models/hole/Hole.h:12-42), `getRegionPoints` (Region.cpp:159-169), `build_pslg` (TriangleDelaunayGenerator.cpp:20-66), `region_copy` (Region.cpp:25-28), `voronoiGenerator` (delynoi/src/voronoi/TriangleVoronoiGenerator.cpp:5-11), `containsPoint` (Polygon.cpp:147-174).

Proof: The equality of sums of C113 for the winding number of the query point, which is an integer and not negative around every cell; even_odd is its parity. containsPoint is the even-odd rule or the border test when no two consecutive corners of the cell coincide within the tolerance (C22), which holds because the indices of a cell are different and stored points are clearly apart.

* `C114_windings_add_up` (T_Wind.v; axioms: funext, sig_forall_dec, sig_not_dec)
* `C114_generator_point_location` (T_Wind.v; axioms: funext, sig_forall_dec, sig_not_dec)

### C115 The Voronoi cells tile every region whose outlines go around no point more than once

Modelled: `region` (delynoi/include/delynoi/models/Region.h:21-36), `hole` (delynoi/include/delynoi/models/hole/Hole.h:12-42), `getRegionPoints` (Region.cpp:159-169), `build_pslg` (TriangleDelaunayGenerator.cpp:20-66), `region_copy` (Region.cpp:25-28), `voronoiGenerator` (delynoi/src/voronoi/TriangleVoronoiGenerator.cpp:5-11), `read_point` (TriangleDelaunayGenerator.cpp:82-89), `polygon` (delynoi/include/delynoi/models/polygon/Polygon.h:25-32,197), `getArea` (Polygon.cpp:82-88), `trout` (TriangleDelaunayGenerator.cpp:82-116).

Proof: That triangles at a border corner stay on the inner side of it, a hypothesis of C112 to C114, is derived: no point is inside two triangles, because each counts for the winding number of the outlines, so the triangles around a border site are a fan that does not overlap itself, and such a fan stays between its first and last edge (PSimple.v, by an identity between cross products, direction by direction). Convex outlines: at most one edge goes down past a given height. Then C112 to C114, with the winding numbers zero or one. What the external library Triangle guarantees is the record fills_region (BridgeSimple.v).

* `C115_cells_tile_region` (T_Simple.v; axioms: funext, sig_forall_dec, sig_not_dec)
* `C115_convex_outlines_plain` (T_Simple.v; axioms: funext, sig_forall_dec)
* `C115_plain_is_on_inner_side` (T_Simple.v; axioms: funext, sig_forall_dec, sig_not_dec)

### C116 The constrained Delaunay mesh tiles the region

Modelled: `trout` (TriangleDelaunayGenerator.cpp:82-116), `read_point` (TriangleDelaunayGenerator.cpp:82-89), `region` (delynoi/include/delynoi/models/Region.h:21-36), `gen_call` (TriangleDelaunayGenerator.h:62-84), `hole` (delynoi/include/delynoi/models/hole/Hole.h:12-42), `getRegionPoints` (Region.cpp:159-169), `build_pslg` (TriangleDelaunayGenerator.cpp:20-66), `region_copy` (Region.cpp:25-28), `gen_do` (TriangleDelaunayGenerator.cpp:144-152, 186-193, 195-202, 204-212), `gen_ctor` (TriangleDelaunayGenerator.cpp:3-7), `triangle` (delynoi/include/delynoi/models/polygon/Triangle.h:12-19), `getArea` (Polygon.cpp:82-88).

Proof: Sum over the triangles of the winding number of a point, and of the area, equals the sum over the border sides and hence over the outlines (C113); for each counterclockwise triangle it is not negative. Reading of the answer and indexing from C50 and C52; containsPoint from C22, getArea from C20. The external library Triangle enters through the record triangle_answer (BridgeSimple.v), which does not ask for the Delaunay property.

* `C116_triangles_apart` (T_Simple.v; axioms: funext, sig_forall_dec, sig_not_dec)
* `C116_triangles_tile_region` (T_Simple.v; axioms: funext, sig_forall_dec, sig_not_dec)

### C117 The constrained Delaunay mesh on doubles tiles the region

Modelled: `region` (delynoi/include/delynoi/models/Region.h:21-36), `gen_call` (TriangleDelaunayGenerator.h:62-84), `hole` (delynoi/include/delynoi/models/hole/Hole.h:12-42), `getRegionPoints` (Region.cpp:159-169), `pseg` (PointSegment.cpp:3), `build_pslg` (TriangleDelaunayGenerator.cpp:20-66), `region_copy` (Region.cpp:25-28), `gen_do` (TriangleDelaunayGenerator.cpp:144-152, 186-193, 195-202, 204-212), `gen_ctor` (TriangleDelaunayGenerator.cpp:3-7), `read_point` (TriangleDelaunayGenerator.cpp:82-89), `switches` (TriangleDelaunayGenerator.cpp:146,188,197,207), `pslg` (delynoi/src/voronoi/TriangleDelaunayGenerator.cpp:25-68), `trout` (TriangleDelaunayGenerator.cpp:82-116), `disk` (lib/utilities/src/utilities.cpp:90), `region_op` (Region.h:45-120), `region_ctor` (Region.cpp:3-5), `region_run` (Region.cpp:7-195), `slash` (utilities.cpp:40), `triangulation_program` (test/SimpleSquareTestMain.cpp:13, 16, 18), `print_double` (utilities.h:12-20).

Proof: The answer of Triangle on grid doubles is turned into an answer over the reals with the same indices and exact values (exact_answer), to which the theorems behind C116 apply; getArea and containsPoint on grid doubles agree with the exact ones (C74, C76). The generator and the program add reading and indexing on doubles (C84, C109). The external library Triangle enters through the record triangle_answer64 (BridgeSimple64.v).

* `C117_constrained_mesh_on_doubles` (T_Simple64.v; axioms: classic, funext, sig_forall_dec, sig_not_dec) — The constrained Delaunay mesh of a region of doubles: the exact sum of the areas getArea answers is the area of the region, and every point on the grid is in exactly one triangle or none.
* `C117_triangulation_program_tiles` (T_Simple64.v; axioms: classic, funext, sig_forall_dec, sig_not_dec) — The documented program that triangulates a domain, as compiled: the mesh it prints tiles the domain.

### C118 The life of a Point object

Modelled: `point_ctor` (Point.cpp:4-7), `point_op` (Point.cpp:52-62), `point_run` (Point.cpp:4-14), `point_new` (Point.cpp:4-14), `isInBoundary` (Point.cpp:48-50), `isValid` (Point.cpp:16-18), `pt_sub` (Point.cpp:44-46), `pt_eqb` (Point.cpp:36-41), `pt_ltb` (Point.cpp:64-75), `squareNorm` (Point.cpp:32-34).

Proof: Model MPoint.v: constructors and mutating calls as functions on the record Point; induction over the list of calls. The refuted part is the documented meaning of isValid, violated by every point built with coordinates.

* `C118_life_of_a_point` (T_Point.v; axioms: closed) — after any sequence of calls the coordinates are the last ones set, the mark is there exactly if it was set, and isValid answers whether the point was built without coordinates.
* `C118_difference` (T_Point.v; axioms: closed) — A difference of points is a new point without marks, whatever happened to the two points.
* `C118_marks_ignored` (T_Point.v; axioms: closed) — The comparisons do not look at the marks.
* `C118_square_norm` (T_Point.v; axioms: funext, sig_forall_dec, sig_not_dec) — The square of the norm.
* `C118_isValid_refuted` (T_Point.v; axioms: funext, sig_forall_dec, sig_not_dec) — The documentation says that isValid tells whether the point is valid; a point built with coordinates answers false.

### C119 Meshes of simple polygons with holes tile them

Modelled: `region` (delynoi/include/delynoi/models/Region.h:21-36), `hole` (delynoi/include/delynoi/models/hole/Hole.h:12-42), `getRegionPoints` (Region.cpp:159-169), `build_pslg` (TriangleDelaunayGenerator.cpp:20-66), `region_copy` (Region.cpp:25-28), `voronoiGenerator` (delynoi/src/voronoi/TriangleVoronoiGenerator.cpp:5-11), `read_point` (TriangleDelaunayGenerator.cpp:82-89), `polygon` (delynoi/include/delynoi/models/polygon/Polygon.h:25-32,197), `getArea` (Polygon.cpp:82-88), `gen_call` (TriangleDelaunayGenerator.h:62-84), `gen_do` (TriangleDelaunayGenerator.cpp:144-152, 186-193, 195-202, 204-212), `gen_ctor` (TriangleDelaunayGenerator.cpp:3-7), `triangle` (delynoi/include/delynoi/models/polygon/Triangle.h:12-19), `pseg` (PointSegment.cpp:3), `switches` (TriangleDelaunayGenerator.cpp:146,188,197,207), `pslg` (delynoi/src/voronoi/TriangleDelaunayGenerator.cpp:25-68), `trout` (TriangleDelaunayGenerator.cpp:82-116), `disk` (lib/utilities/src/utilities.cpp:90), `region_op` (Region.h:45-120), `region_ctor` (Region.cpp:3-5), `region_run` (Region.cpp:7-195), `slash` (utilities.cpp:40), `triangulation_program` (test/SimpleSquareTestMain.cpp:13, 16, 18), `print_double` (utilities.h:12-20).

Proof: The Jordan curve theorem for polygons, proved in PJordan.v to PJordan5.v: the winding number just left of an edge minus that just right of it is one (a small step across an edge, made precise by germs of polynomials in a small parameter), it does not change along an edge nor around a corner of a simple outline, so it is the same k on the left of all edges; any point not seen by an edge to its left has winding number zero, so the values are 0, k and k-1; the lowest edge seen from outside gives k = 0 or 1; and by Abel summation over horizontal strips the signed area of an outline that goes around no point in the positive direction is not positive, so the sign of the area decides. For regions with holes the same constancy is applied to the sum of the outlines, with one point of each hole inside the outline and outside the other holes. The tiling statements are C115 to C117 with this. Simple outlines and regions are defined in BridgeJordan.v.

* `C119_simple_polygon_winds_once` (T_Jordan.v; axioms: classic, funext, sig_forall_dec, sig_not_dec) — A simple polygon goes around the points in it once, in the direction its signed area says, and around the others not at all.
* `C119_inside_simple_region` (T_Jordan.v; axioms: classic, funext, sig_forall_dec, sig_not_dec) — Holes of a simple region do not overlap and are in its outline; the points of the region are those in the outline and in no hole.
* `C119_simple_region_plain` (T_Jordan.v; axioms: classic, funext, sig_forall_dec, sig_not_dec) — The outlines of a simple region go around no point more than once.
* `C119_cells_tile_simple_region` (T_Jordan.v; axioms: classic, funext, sig_forall_dec, sig_not_dec) — The Voronoi cells of a simple region tile it.
* `C119_triangles_tile_simple_region` (T_Jordan.v; axioms: classic, funext, sig_forall_dec, sig_not_dec) — The triangles of the constrained Delaunay mesh of a simple region tile it.
* `C119_constrained_mesh_on_doubles` (T_Jordan.v; axioms: classic, funext, sig_forall_dec, sig_not_dec) — The same on doubles.
* `C119_triangulation_program_tiles` (T_Jordan.v; axioms: classic, funext, sig_forall_dec, sig_not_dec) — The documented program that triangulates a simple domain, as compiled.

### C120 The Voronoi mesh on doubles adds up to the region exactly, in spite of rounding

Modelled: `switches` (TriangleDelaunayGenerator.cpp:146,188,197,207), `pslg` (delynoi/src/voronoi/TriangleDelaunayGenerator.cpp:25-68), `trout` (TriangleDelaunayGenerator.cpp:82-116), `region` (delynoi/include/delynoi/models/Region.h:21-36), `getRegionPoints` (Region.cpp:159-169), `hole` (delynoi/include/delynoi/models/hole/Hole.h:12-42), `build_pslg` (TriangleDelaunayGenerator.cpp:20-66), `region_copy` (Region.cpp:25-28), `voronoiGenerator` (delynoi/src/voronoi/TriangleVoronoiGenerator.cpp:5-11), `read_point` (TriangleDelaunayGenerator.cpp:82-89), `disk` (lib/utilities/src/utilities.cpp:90), `region_op` (Region.h:45-120), `region_ctor` (Region.cpp:3-5), `region_run` (Region.cpp:7-195), `slash` (utilities.cpp:40), `mesh_program` (test/LShapeTestMain.cpp:11-15), `print_double` (utilities.h:12-20), `um_find` (SegmentMap.cpp:7), `iseg_eqb` (IndexSegment.cpp:59-62), `polygon` (delynoi/include/delynoi/models/polygon/Polygon.h:25-32,197).

Proof: The mesh on doubles stores, for each true cell, the rounded corners (C100, C107). Inner edges of cells are shared by two cells and cancel also after rounding, because both cells store the same rounded points; what remains is the border of the triangulation, each side with its middle, and since sites and middles of border sides are on the grid, the border is stored exactly. So the sums over the stored cells of any quantity that adds over edges - twice the area, the winding number - are those of the outlines (PRound.v to PRound5.v), and C119 gives the winding numbers of simple regions. The library Triangle enters through delaunay_answer64, sources_apart64 (BridgeVor64.v) and fills_region64 (BridgeRound.v). Not claimed: that a single stored cell keeps the direction or the shape of the true cell, which is false for cells as small as a rounding error.

* `C120_generator_adds_up` (T_Round.v; axioms: classic, funext, sig_forall_dec, sig_not_dec)
* `C120_program_adds_up` (T_Round.v; axioms: classic, funext, sig_forall_dec, sig_not_dec)

### C121 callTriangle uses its memory correctly as long as there is enough

Modelled: `triangle` (delynoi/include/delynoi/models/polygon/Triangle.h:12-19), `gen` (TriangleDelaunayGenerator.h:41), `heap` (TriangleDelaunayGenerator.cpp:26,28,43,63), `build_pslg` (TriangleDelaunayGenerator.cpp:20-66), `callTriangle` (TriangleDelaunayGenerator.cpp:9-142), `callTriangle_mem` (TriangleDelaunayGenerator.cpp:14-142), `hp_get` (TriangleDelaunayGenerator.cpp:32-138), `region` (delynoi/include/delynoi/models/Region.h:21-36), `getRegionPoints` (Region.cpp:159-169).

Proof: Model MHeap.v: a heap of blocks, malloc with an arbitrary allocator, elements that are indeterminate until written, free; the two structs with all their fields, uninitialised where the code does not assign them; every access out of bounds, through NULL, to a freed block or to an indeterminate element, every double free and every int overflow of a size or index is undefined behaviour. The theorem is a refinement: this model computes what the model with lists (MDelaunay.v) computes and restores the heap. Loop invariants for the four filling loops (a written prefix and an indeterminate rest), reading loops against the lists, and the list of freed pointers without repetition. The library Triangle enters through honest (BridgeHeap.v), which was written from what triangle.c does with the output struct for these switches: it allocates a field only if it is NULL, and copies the pointers holelist and regionlist. Exceptions thrown while reading the answer leave the arrays allocated; the theorem says nothing about the heap then.

* `C121_arrays` (T_Heap.v; axioms: closed) — With enough memory, callTriangle writes and reads its arrays only within bounds and after they are written, hands Triangle exactly the planar graph, computes what the model with lists computes, and gives every block back once: no block of its own or of Triangle is left, no other block is touched.
* `C121_exhausted_memory` (T_Heap.v; axioms: closed) — The answer of malloc is not checked: without memory the first write goes through NULL.

### C122 Scripts of tests on several regions write the files they name, unless they test triangulations

Modelled: `switches` (TriangleDelaunayGenerator.cpp:146,188,197,207), `pslg` (delynoi/src/voronoi/TriangleDelaunayGenerator.cpp:25-68), `trout` (TriangleDelaunayGenerator.cpp:82-116), `statement` (AllTests.cpp:45-290), `region` (delynoi/include/delynoi/models/Region.h:21-36), `field` (delynoi/include/delynoi/voronoi/lib/triangle.h:257-286), `script_run` (AllTests.cpp:45-290), `life`, `disk` (lib/utilities/src/utilities.cpp:90), `region_ctor` (Region.cpp:3-5), `script_main` (AllTests.cpp:23-293), `print_double` (utilities.h:12-20), `gen_do` (TriangleDelaunayGenerator.cpp:144-152, 186-193, 195-202, 204-212), `gen_ctor` (TriangleDelaunayGenerator.cpp:3-7), `region_copy` (Region.cpp:25-28).

Proof: Model MScript.v: the two test functions and the statements of main on a list of regions and a disk. Induction over the script; the region a file is about is described by life (BridgeScript.v), which runs only the statements that name the region. Files from C98 and C109; success on doubles from C104 and C107. The triangulation tests fail by C63.

* `C122_files` (T_Script.v; axioms: closed)
* `C122_runs` (T_Script.v; axioms: classic, funext, sig_forall_dec, sig_not_dec)
* `C122_triangle_tests_never_end` (T_Script.v; axioms: closed) — Property violated: a script with a triangulation test, as AllTests.cpp has at line 48, never runs to its end.
* `C122_triangle_tests_undefined` (T_Script.v; axioms: closed) — Triangle does its work and the statements before are done: the behaviour of the whole program is undefined.

### C123 Circles, arcs and waves are right on doubles up to a stated error, for any accurate sin and cos

Modelled: `config` (delynoi/include/delynoi/config/DelynoiConfig.h:9-27), `discretizeCircleN` (Circle.cpp:10-27), `M_PI64` (lib/utilities/src/utilities.cpp:51), `circularHole_at` (delynoi/src/models/hole/CircularHole.cpp:3-15), `generateArcPointsN` (delynoi_utilities.cpp:32-49), `sineN` (delynoi/src/models/generator/functions/FunctorClasses.cpp:33-35), `cosineN` (FunctorClasses.cpp:50-52), `generateArcPoints` (delynoi_utilities.cpp:32-49), `discretizeCircle` (Circle.cpp:10-27).

Proof: Model MTrig64.v: the same code over any numbers with M_PI, sin and cos as parameters; C123_exact says that on the reals with PI, sin, cos it is the model MTrig.v of C72 and C73. On doubles M_PI is the double of math.h and sin and cos are any functions that meet accurate (BridgeTrig64.v); glibc documents 1 ulp, which is stronger. Rounding errors are bounded operation by operation (PTrig64.v), with the error of M_PI from a proof of its first 16 digits by the Machin series (PPi.v). The loop over angles is exact on doubles, because angles are integers. The endless loops: angles never exceed 0 and stop at -2^62, where subtracting 360 changes nothing.

* `C123_circle` (T_Trig64.v; axioms: classic, funext, sig_forall_dec, sig_not_dec) — the points of a circle.
* `C123_bad_grades` (T_Trig64.v; axioms: classic, funext, sig_forall_dec, sig_not_dec) — other grades.
* `C123_circular_hole` (T_Trig64.v; axioms: classic, funext, sig_forall_dec, sig_not_dec) — a circular hole.
* `C123_arc` (T_Trig64.v; axioms: classic, funext, sig_forall_dec, sig_not_dec) — the points of an arc.
* `C123_waves` (T_Trig64.v; axioms: classic, funext, sig_forall_dec, sig_not_dec) — the values of the sine and cosine functors.
* `C123_exact` (T_Trig64.v; axioms: funext, sig_forall_dec, sig_not_dec) — on the reals the same text is the exact model.

### C124 Generators and meshes of a program share edge maps exactly along families

Modelled: `switches` (TriangleDelaunayGenerator.cpp:146,188,197,207), `pslg` (delynoi/src/voronoi/TriangleDelaunayGenerator.cpp:25-68), `trout` (TriangleDelaunayGenerator.cpp:82-116), `act` (Mesh.h:36-124), `world_run` (Mesh.h:128-278), `world_mesh` (Mesh.h:217-278), `act_do` (Mesh.h:128-278), `um_find` (SegmentMap.cpp:7), `iseg_eqb` (IndexSegment.cpp:59-62), `createFromStream` (Mesh.h:167-201), `triangle_ctor` (Triangle.cpp:6-8), `gen_do` (TriangleDelaunayGenerator.cpp:144-152, 186-193, 195-202, 204-212), `gen_ctor` (TriangleDelaunayGenerator.cpp:3-7), `build_pslg` (TriangleDelaunayGenerator.cpp:20-66), `call_restricted` (TriangleDelaunayGenerator.cpp:205-209), `read_output` (TriangleDelaunayGenerator.cpp:82-124), `call_switches` (TriangleDelaunayGenerator.cpp:147,189,198,208), `nb_two` (NeighboursBySegment.cpp:9-12).

Proof: Model MShare.v: a heap of edge maps and point maps, generators and meshes that point into it, nine acts. The families of a program are computed from its acts alone (BridgeShare.v), without heap or pointers. Invariant by induction over the acts: the family number of an object is the number of the map it points to (PShare.v). Destruction of objects and delete of the maps are not modelled; the library never deletes the maps.

* `C124_family_shares_edges` (T_Share.v; axioms: closed)
* `C124_other_families_untouched` (T_Share.v; axioms: closed)
* `C124_lookup_seen_by_family` (T_Share.v; axioms: closed)
* `C124_reading_seen_by_family` (T_Share.v; axioms: closed)
* `C124_first_mesh` (T_Share.v; axioms: closed)
* `C124_first_call_writes` (T_Share.v; axioms: closed)
* `C124_later_calls_write_nothing` (T_Share.v; axioms: closed)
* `C124_calls_on_filled_generators` (T_Share.v; axioms: closed) — The same for a copy of a generator that had been called.
* `C124_careful_programs` (T_Share.v; axioms: closed)
* `C124_meshes_of_one_generator_refuted` (T_Share.v; axioms: closed) — Property violated: asking the neighbours of a segment of one mesh adds an edge to another mesh of the same generator.
* `C124_copied_generator_refuted` (T_Share.v; axioms: closed) — Property violated: a generator and its copy, each asked once, leave both diagonals of the square in the map of a mesh of two triangles.

### C125 Generators on functors of their own are independent; shared functors make them depend on each other and on the compiler

Modelled: `fact` (functions.cpp:7-39), `fact_run` (PointGenerator.cpp:5-39), `fact_do` (PointGenerator.cpp:5-39), `generate` (PointGenerator.cpp:27-39), `functor` (noise/RandomDoubleNoise.cpp:15-17), `grid_indices` (PointGenerator.cpp:27-39).

Proof: Model MFunctor.v: functors as objects on a heap, noise objects with a pointer, generators with one or two pointers, and a parameter for the order of evaluation at each point. Specification: stands_for says which functor without pointers (MGen.v) a pointer stands for, and bottoms computes from the acts alone on which functor each pointer rests (BridgeFunctor.v). Refinement by induction over the grid, frame by induction over the chain of noise objects (PFunctor.v).

* `C125_own_functors` (T_Functor.v; axioms: closed)
* `C125_stateless_functors_can_be_shared` (T_Functor.v; axioms: closed)
* `C125_displacing_functor_for_both` (T_Functor.v; axioms: closed)
* `C125_order_of_evaluation_refuted` (T_Functor.v; axioms: closed) — Property violated: the points of one program depend on the order in which the compiler evaluates two arguments.
* `C125_independent_generators_refuted` (T_Functor.v; axioms: closed) — Property violated: a generator gives other points after another generator with the same functor was used.

### C126 What a polygon answers is determined by its calls: caches and hash survive changes of its list until certain calls

Modelled: `birth` (Polygon.cpp:8-19, 35-51), `life`, `pcall_do` (Polygon.cpp:82-88, 90-97, 99-105, 270-275, 21-33, 55-62), `polygon_ctor_idx` (Polygon.cpp:8-19), `getArea` (Polygon.cpp:82-88), `getDiameter` (Polygon.cpp:90-97), `pobj_eqb` (Polygon.cpp:242-244), `obj_of` (Polygon.cpp:15-18), `pobj` (delynoi/include/delynoi/models/polygon/Polygon.h:25-32,197), `pcalls`.

Proof: Model MPolyLife.v: the polygon with optional doubles (None = never written, reading it is UB), every constructor and call, and what the program sees of each call. Specification in BridgePolyLife.v from calls and answers only: shown computes the index list, since says which answers came last. Invariants kept by every call until an answer of a given kind, lifted to histories by splitting a life at an answer (PPolyLife.v).

* `C126_index_list` (T_PolyLife.v; axioms: closed)
* `C126_area_is_kept` (T_PolyLife.v; axioms: closed)
* `C126_diameter_is_kept` (T_PolyLife.v; axioms: closed)
* `C126_area_is_computed_anew` (T_PolyLife.v; axioms: closed)
* `C126_diameter_is_computed_anew` (T_PolyLife.v; axioms: closed)
* `C126_centroid_is_the_origin` (T_PolyLife.v; axioms: closed)
* `C126_equal_to_its_copy` (T_PolyLife.v; axioms: closed)
* `C126_compared_by_the_old_list` (T_PolyLife.v; axioms: closed)
* `C126_default_polygon_is_undefined` (T_PolyLife.v; axioms: closed)
* `C126_initialised_otherwise` (T_PolyLife.v; axioms: closed)
* `C126_area_of_the_current_list_refuted` (T_PolyLife.v; axioms: closed) — Property violated: two polygons with the same index list over the same points answer different areas.
* `C126_refused_mutation_refuted` (T_PolyLife.v; axioms: closed) — Property violated: a refused mutation leaves the new list with the old area.
* `C126_copies_are_equal_refuted` (T_PolyLife.v; axioms: closed) — Property violated: a polygon differs from its own copy.

### C127 Turns, areas, orientation, circumcenters and Voronoi vertices are right on arbitrary doubles up to stated errors

Modelled: `orientation` (delynoi_utilities.cpp:28-30), `geo_area` (delynoi/src/utilities/geometryFunctions.cpp:29-39), `isClockwise` (Polygon.cpp:224-240), `polygon` (delynoi/include/delynoi/models/polygon/Polygon.h:25-32,197), `fixCCW` (Polygon.cpp:270-275), `circumcenter` (delynoi/src/models/polygon/Triangle.cpp:29-40), `trout` (TriangleDelaunayGenerator.cpp:82-116), `read_point` (TriangleDelaunayGenerator.cpp:82-89), `read_output` (TriangleDelaunayGenerator.cpp:82-124), `voronoi` (DelaunayToVoronoi.cpp:3-105).

Proof: The model is the one of the earlier properties (MGeom.v, MPolygon.v, MTriangle.v, MDelaunay.v, MVoronoi.v) at the instance F64. Specification: exact shoelace sum, orient and distances of the reals the doubles stand for; bounds in BridgeErr.v. Proof by a forward error calculus (PErr.v): app W b k x r says that the double x is finite, the exact r is at most b W and the error at most k u W, with one lemma per operation; composed function by function (PErr2.v, PErr3.v), with an induction over the terms for sums; the diagram from C53 and the cluster argument of C95 (PErr4.v). Triangle is a parameter: the hypotheses on its answer are in the theorem.

* `C127_turn` (T_Err.v; axioms: classic, funext, sig_forall_dec, sig_not_dec)
* `C127_area` (T_Err.v; axioms: classic, funext, sig_forall_dec, sig_not_dec)
* `C127_orientation` (T_Err.v; axioms: classic, funext, sig_forall_dec, sig_not_dec)
* `C127_counterclockwise` (T_Err.v; axioms: classic, funext, sig_forall_dec, sig_not_dec)
* `C127_orientation_refuted` (T_Err.v; axioms: funext, sig_forall_dec) — The area cannot be left out: a thin triangle with coordinates in tenths, counterclockwise, is called clockwise.
* `C127_circumcenter` (T_Err.v; axioms: classic, funext, sig_forall_dec, sig_not_dec)
* `C127_diagram` (T_Err.v; axioms: classic, funext, sig_forall_dec, sig_not_dec)

### C128 Containment tests and seeding are right on arbitrary doubles up to a stated slack

Modelled: `seg_contains` (Segment.cpp:22-33), `inEdges` (Polygon.cpp:189-193), `containsPoint` (Polygon.cpp:147-174), `region` (delynoi/include/delynoi/models/Region.h:21-36), `addSeedPoints` (Region.cpp:92-95), `with_seeds` (Region.cpp:86-114).

Proof: Same model at the instance F64. Specification: even_odd, near_border, on_border and strictly_convex of the reals the doubles stand for. The quotient of the crossing test is bounded without underflow by the relative error of differences of doubles (Flocq, FLT_plus_error_N_ex); an edge whose crossing is misjudged passes so close to the point that the border test, proved sound and complete up to the slack by the calculus of C127, answers true anyway, so that no hypothesis on the distance from the outline is needed (PErr5.v); the rest from the even-odd theorems of C22 and the seeding characterisation of C36.

* `C128_segment` (T_Err2.v; axioms: classic, funext, sig_forall_dec, sig_not_dec)
* `C128_edges` (T_Err2.v; axioms: classic, funext, sig_forall_dec, sig_not_dec)
* `C128_contains` (T_Err2.v; axioms: classic, funext, sig_forall_dec, sig_not_dec)
* `C128_border` (T_Err2.v; axioms: classic, funext, sig_forall_dec, sig_not_dec)
* `C128_border_refuted` (T_Err2.v; axioms: funext, sig_forall_dec) — The bound on the coordinates cannot be left out: with the default tolerance, the exact middle of a side of a triangle with coordinates in tenths below 2^20 is reported to be outside.
* `C128_convex` (T_Err2.v; axioms: classic, funext, sig_forall_dec, sig_not_dec)
* `C128_region` (T_Err2.v; axioms: classic, funext, sig_forall_dec, sig_not_dec)
* `C128_seeding` (T_Err2.v; axioms: classic, funext, sig_forall_dec, sig_not_dec)

### C129 A constant grid over a rectangle of doubles keeps all its points, and the timing program reports true counts and writes each file once

Modelled: `region` (delynoi/include/delynoi/models/Region.h:21-36), `region_ctor` (Region.cpp:3-5), `f_constant` (delynoi/src/models/generator/functions/functions.cpp:7-21), `generateSeedPoints` (Region.cpp:86-90), `with_seeds` (Region.cpp:86-114), `switches` (TriangleDelaunayGenerator.cpp:146,188,197,207), `pslg` (delynoi/src/voronoi/TriangleDelaunayGenerator.cpp:25-68), `trout` (TriangleDelaunayGenerator.cpp:82-116), `disk` (lib/utilities/src/utilities.cpp:90), `time_state` (test/TimeSquareTestMain.cpp:14-15, 33), `time_program` (test/TimeSquareTestMain.cpp:8-47), `time_meshes` (test/TimeSquareTestMain.cpp:18-28), `polygon` (delynoi/include/delynoi/models/polygon/Polygon.h:25-32,197), `time_domain` (test/TimeSquareTestMain.cpp:18-22).

Proof: Model MTime.v (the program: open log, loop, flushed log line, printed mesh; n*n above int is UB; the clock is a parameter) over the model of the earlier properties. Specification in BridgeTime.v: left_in (what a writable path holds), log_row, run_path (decimal number without leading zeros), mesh_text of C109. Grid: the nodes are near the exact ones (C105), the exact ones lie in the rectangle, and the containment theorem of C128 accepts everything within half the tolerance of it (PTime.v). Program: an invariant over the runs done so far, with distinct file names by injectivity of decimal printing (PTime2.v).

* `C129_grid_kept` (T_Time.v; axioms: classic, funext, sig_forall_dec, sig_not_dec)
* `C129_time_files` (T_Time.v; axioms: closed)
* `C129_time_runs` (T_Time.v; axioms: closed)
* `C129_time_count` (T_Time.v; axioms: classic, funext, sig_forall_dec, sig_not_dec)

### C130 A seed file of any layout is read line by line, and the program that reads one is the documented program on these points

Modelled: `read_seed_file` (Region.cpp:97-114), `region` (delynoi/include/delynoi/models/Region.h:21-36), `addSeedsFromFile` (Region.cpp:97-114), `with_seeds` (Region.cpp:86-114), `switches` (TriangleDelaunayGenerator.cpp:146,188,197,207), `pslg` (delynoi/src/voronoi/TriangleDelaunayGenerator.cpp:25-68), `trout` (TriangleDelaunayGenerator.cpp:82-116), `disk` (lib/utilities/src/utilities.cpp:90), `region_ctor` (Region.cpp:3-5), `slash` (utilities.cpp:40), `read_program` (test/ReadPointsFromFileTestMain.cpp:6-18), `mesh_program` (test/LShapeTestMain.cpp:11-15).

Proof: Model MMesh.v (read_seed_file, getline, atoi), MFile.v and MRead.v (the program). Specification in BridgeSeed.v: laid_out (lines joined by line ends), line_at, announces and gives (words by fields_of of Spec.v), independent of streams. The stream after i lines is related to the rest of the lines, with the end-of-file flag when none is left (induction on the number of points, PRead.v); the program by equality with mesh_program of C109. atof is a parameter.

* `C130_every_text_has_lines` (T_Read.v; axioms: closed)
* `C130_seed_file` (T_Read.v; axioms: closed)
* `C130_seeds_of_the_region` (T_Read.v; axioms: closed)
* `C130_program` (T_Read.v; axioms: closed)

### C131 Reading a mesh file depends only on its numbers, not on its layout

Modelled: `mesh` (delynoi/include/delynoi/models/Mesh.h:15-33), `createFromStream` (Mesh.h:167-201), `pt_ltb` (Point.cpp:64-75), `polygon_ctor_idx` (Polygon.cpp:8-19), `mesh_new` (Mesh.h:129-132), `um_find` (SegmentMap.cpp:7), `iseg_match` (mapdata.h:43-50), `atof64` (Mesh.h:176).

Proof: Model MMesh.v (createFromStream, getline, atoi, splitBySpaces). Specification in BridgeLayout.v (same_mesh_data) on the lines of BridgeSeed.v. Both runs are shown, by induction on the points and then on the polygons, to read line i of their file at the same step (PLayout.v), so their results are equal. mesh_file says what the lines describe; file_read computes the result from them, with the unique list of points and the edge map of C08. The refutation is a file with 99 corners announced for a triangle (Samples31.v). atof and the polygon constructor are parameters.

* `C131_layout_irrelevant` (T_Layout.v; axioms: closed)
* `C131_files_of_any_layout_are_read` (T_Layout.v; axioms: closed) — A file of any layout is read as the mesh it describes: points, polygons, and the neighbours of every edge.
* `C131_wrong_corner_counts_are_noticed_refuted` (T_Layout.v; axioms: closed)
