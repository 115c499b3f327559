{"id": "C01", "title": "Playback notifications describe the state", "statement": "After any history of Play/Pause/Stop/Update calls the reported playback state is Playing, Paused or Stopped according to the most recent OnPlay/OnPause/OnStop notification the listener of the current playback received (Stopped if none), and no two consecutive notifications announce the same state.", "quantifier": "all finite sequences of public Playback calls, all frame ranges, speeds and time deltas, all built-in listeners", "why_tests_cant": "a test fixes one call sequence; the claim is about every history, including calls made by the listener from inside a notification", "anchors": ["sources/Playback.cpp: Playback::SetState, Play, Pause, Stop, Update", "include/Geom/Playback.h"]}
{"id": "C02", "title": "One-shot playback visits every frame of its range once, then stops", "statement": "With the one-shot listener and positive speed, for every sequence of time deltas, the displayed frames are a prefix of first, first+1, ..., last; the playback stops exactly when the elapsed frame time has used up the range, OnStop is delivered once, and the displayed frame is then the last one. The notification count depends only on the accumulated time, not on how it was cut into Update calls.", "quantifier": "all first < last, all positive speeds, all sequences of non-negative time deltas", "why_tests_cant": "the number and size of Update calls is unbounded; tests sample a handful of frame rates", "anchors": ["sources/Playback.cpp: OneShotPlaybackListener::OnNextFrame, Playback::Update, SetNextFrame, HasEndReached"]}
{"id": "C03", "title": "Looping playback cycles through its range forever", "statement": "With the loop listener and positive speed the displayed frame after k frame steps is first + (k mod (last-first+1)): frames stay within the range, every frame of the range recurs, and the playback never stops by itself.", "quantifier": "all first <= last, all positive speeds, all sequences of time deltas", "why_tests_cant": "wrap-around behaviour over an unbounded number of cycles", "anchors": ["sources/Playback.cpp: LoopPlaybackListener::OnNextFrame, Playback::Update"]}
{"id": "C04", "title": "Ping-pong playback bounces inside its range", "statement": "With the ping-pong listener the displayed frame moves by one frame per step, turns round at both ends and never leaves the range originally passed to Play.", "quantifier": "all first < last, all positive speeds, all sequences of time deltas (and the single-frame range first = last)", "why_tests_cant": "range containment is an invariant over unbounded histories with the range being swapped under way", "anchors": ["sources/Playback.cpp: PingPongPlaybackListener::OnNextFrame, Playback::SetNextFrame, HasEndReached"]}
{"id": "C05", "title": "Frame interpolator stays in the unit interval and is time-additive", "statement": "While playing forward the interpolator is in [0,1) after every Update; the pair (frame steps, interpolator) equals the integer and fractional part of the accumulated delta times speed, so that splitting an Update into two updates of the same total time changes nothing. Update with a non-positive delta, or while paused or stopped, changes nothing.", "quantifier": "all speeds > 0, all sequences of time deltas", "why_tests_cant": "additivity quantifies over all real deltas and all ways of splitting them", "anchors": ["sources/Playback.cpp: Playback::Update"]}
{"id": "C06", "title": "Pausing is transparent", "statement": "Pause followed by any number of Updates and a resuming call leaves frame, next frame, interpolator, speed and range exactly as before the pause, and playback then continues as if the pause had not happened.", "quantifier": "all states reachable while playing, any updates during the pause", "why_tests_cant": "needs equality of complete future behaviour, not of one observation", "anchors": ["sources/Playback.cpp: Playback::Pause, Update, SetState"]}
{"id": "C07", "title": "Backward playback mirrors forward playback", "statement": "With negative speed the built-in listeners step through the range in descending order in the same way as they ascend with positive speed.", "quantifier": "all ranges and negative speeds", "why_tests_cant": "the claim relates two complete runs for every input", "anchors": ["sources/Playback.cpp: Playback::Update, HasEndReached, SetNextFrame, OneShotPlaybackListener"]}
{"id": "C08", "title": "Updating a playback always terminates", "statement": "Playback::Update returns for every finite time delta and speed.", "quantifier": "all finite floating-point deltas, speeds and interpolator values", "why_tests_cant": "termination over the whole floating-point range cannot be sampled", "anchors": ["sources/Playback.cpp: Playback::Update"]}
{"id": "C09", "title": "Keyframe tracks interpolate their keyframes", "statement": "After building keys, the value of a track at the frame of a keyframe is that keyframe's value; between two neighbouring keyframes it is their linear interpolation at the relative position; before the first and after the last keyframe of the track it is the nearest keyframe's value; the order in which keyframes were listed does not matter.", "quantifier": "all keyframe lists with pairwise distinct frames, any number of keyframes, all frames in the range", "why_tests_cant": "unbounded lists, gaps and permutations", "anchors": ["sources/KeyframeSequence.cpp: BuildInterpolatedKeys, KeyframeSequence::BuildKeys", "include/Geom/KeyframeSequence.h"]}
{"id": "C10", "title": "All keyframe tracks cover the same frame range", "statement": "After BuildKeys the frame range begins at the smallest and ends one past the greatest keyframe frame of all tracks, and each track has exactly one key per frame of the range; non-empty input tracks are needed for a non-empty range.", "quantifier": "all triples of keyframe lists, frames below the size_t maximum", "why_tests_cant": "unbounded input; off-by-one errors show only for particular shapes", "anchors": ["sources/KeyframeSequence.cpp: GetFrameBounds, BuildKeys"]}
{"id": "C11", "title": "Sampling a keyframe sequence is clamped and memory safe", "statement": "Interpolate never reads outside the key arrays, whatever frames are requested, and requests outside the frame range behave as the nearest frame in range; interpolation is exact at 0 and 1.", "quantifier": "all histories of BuildKeys/ClearKeys, all size_t frame numbers, all interpolators", "why_tests_cant": "the history and both frame numbers are unbounded", "anchors": ["sources/KeyframeSequence.cpp: KeyframeSequence::Interpolate, ClampFrame, ClearKeys"]}
{"id": "C12", "title": "Rebuilding keys depends only on the new keyframes", "statement": "The keys after BuildKeys are a function of the keyframes passed to it, independent of what was built before.", "quantifier": "all histories of BuildKeys and ClearKeys", "why_tests_cant": "quantifies over all previous histories", "anchors": ["sources/KeyframeSequence.cpp: BuildInterpolatedKeys, BuildKeys"]}
{"id": "C13", "title": "Joint enumeration is the preorder of the joint forest", "statement": "NumJoints, JointList, ForEachJoint and the transform buffers enumerate the same joints, each exactly once, parents before children and siblings in insertion order, with the indices 0..NumJoints-1.", "quantifier": "all joint forests of any depth and breadth", "why_tests_cant": "structural induction over unbounded trees", "anchors": ["sources/Skeleton.cpp: NumJoints, JointList, ForEachJoint, FillGlobalTransformBuffer", "sources/SkeletonJoint.cpp"]}
{"id": "C14", "title": "Transform buffers are filled within bounds", "statement": "FillGlobalTransformBuffer and FillLocalTransformBuffer write exactly 16*min(NumJoints, bufferSize/16) scalars at the front of the buffer, nothing else, and reject a null buffer or a size that is not a multiple of 16.", "quantifier": "all skeletons, all buffer sizes", "why_tests_cant": "out-of-bounds writes for unlucky combinations of forest shape and buffer size are not found by sampling", "anchors": ["sources/Skeleton.cpp: FillGlobalTransformBuffer, FillLocalTransformBuffer, FillJointTransformBuffer"]}
{"id": "C15", "title": "Joint matrices are products along the path to the root", "statement": "The i-th matrix of the global buffer is the product of the pose transforms on the path from the root to the i-th joint (the joint's GlobalTransform), multiplied by its joint-space transform if relative matrices are requested.", "quantifier": "all forests and transforms", "why_tests_cant": "unbounded depth; an order mistake needs non-commuting transforms at depth >= 2", "anchors": ["sources/Skeleton.cpp: FillGlobalTransformBuffer", "sources/SkeletonJoint.cpp: GlobalTransform"]}
{"id": "C16", "title": "Bind pose is neutral and joint space is invertible", "statement": "After BuildJointSpace the relative global transforms are all identity while the pose is unchanged, and rebuilding the poses from the joint spaces restores the original poses.", "quantifier": "all forests with invertible transforms", "why_tests_cant": "algebraic identity over all matrices and all trees", "anchors": ["sources/SkeletonJoint.cpp: BuildJointSpaceTransform, RebuildOriginTransform", "sources/Skeleton.cpp: BuildJointSpace"]}
{"id": "C17", "title": "Removing a joint returns that joint and detaches its subtree", "statement": "RemoveRootJoint/RemoveSubJoint hand ownership of exactly the requested joint to the caller, the remaining siblings are unchanged, and the removed joint can be added elsewhere.", "quantifier": "all forests, all positions of the joint among its siblings", "why_tests_cant": "depends on the position in an unbounded sibling list; the last position is undefined behaviour that tests may survive", "anchors": ["sources/Skeleton.cpp: RemoveRootJoint", "sources/SkeletonJoint.cpp: RemoveSubJoint"]}
{"id": "C18", "title": "Copying a skeleton duplicates its structure", "statement": "CopyFrom appends to the target a forest of the same shape and the same transforms and leaves the source unchanged; adding a joint makes the receiver its only parent and refuses joints that already have a parent.", "quantifier": "all source and target forests", "why_tests_cant": "unbounded trees", "anchors": ["sources/Skeleton.cpp: CopyFrom, AddRootJoint", "sources/SkeletonJoint.cpp: CopyFrom, AddSubJoint"]}
{"id": "C19", "title": "Edge list of a mesh is exact", "statement": "Edges() returns, sorted and without duplicates and with a <= b in every entry, exactly the undirected edges of the triangles of the mesh.", "quantifier": "all triangle lists, including degenerate triangles", "why_tests_cant": "exactness over unbounded lists", "anchors": ["sources/TriangleMesh.cpp: TriangleMesh::Edges", "include/Geom/TriangleMesh.h"]}
{"id": "C20", "title": "Silhouette edges are the non-shared or sharply bent edges", "statement": "SilhouetteEdges returns a subset of Edges() which contains every edge of exactly one triangle and those edges whose two triangles' normals deviate by more than the tolerance, and nothing else.", "quantifier": "all meshes, all tolerances", "why_tests_cant": "quantifies over all meshes; the classification is per edge over the whole triangle list", "anchors": ["sources/TriangleMesh.cpp: TriangleMesh::SilhouetteEdges"]}
{"id": "C21", "title": "Triangle neighborhood is the breadth-first ball", "statement": "TriangleNeighbors returns the triangles reachable from the given ones within the given number of neighbor steps (sharing a vertex, or an edge when edge bonds are requested), each listed once.", "quantifier": "all meshes, all sets of start triangles, all depths", "why_tests_cant": "reachability of unbounded depth; independent specification by paths", "anchors": ["sources/TriangleMesh.cpp: TriangleMesh::TriangleNeighbors"]}
{"id": "C22", "title": "Searching triangles by vertex or edge is exact", "statement": "FindTriangles(vertex) and FindTriangles(edge) return exactly the indices of the triangles using the vertex or containing the edge in either direction, in ascending order.", "quantifier": "all meshes, all vertices and edges", "why_tests_cant": "exactness over unbounded lists", "anchors": ["sources/TriangleMesh.cpp: TriangleMesh::FindTriangles"]}
{"id": "C23", "title": "Appending meshes preserves both parts", "statement": "Append leaves the existing vertices and triangles in place, adds the other mesh's vertices, and adds its triangles with indices that address the same vertex data as before; appending is associative and a mesh whose indices are in range stays so.", "quantifier": "all pairs and triples of meshes with in-range indices", "why_tests_cant": "associativity and index preservation over all sizes", "anchors": ["sources/TriangleMesh.cpp: TriangleMesh::Append, AddVertex, AddTriangle"]}
{"id": "C24", "title": "Mesh bounding box is tight", "statement": "BoundingBox of a non-empty mesh contains all vertices and every one of its faces touches a vertex, so it is contained in any other box containing the mesh.", "quantifier": "all vertex lists", "why_tests_cant": "minimality is a statement about all other boxes", "anchors": ["sources/TriangleMesh.cpp: TriangleMesh::BoundingBox", "include/Geom/AABB.h"]}
{"id": "C25", "title": "Multi-threaded bounding box equals the sequential one", "statement": "BoundingBoxMultiThreaded returns the same box as BoundingBox for every number of threads and every interleaving of the worker threads.", "quantifier": "all vertex lists, all thread counts, all interleavings", "why_tests_cant": "schedules cannot be enumerated by tests", "anchors": ["sources/TriangleMesh.cpp: BoundingBoxMultiThreaded"]}
{"id": "C26", "title": "Barycentric interpolation of vertices", "statement": "Interpolating a triangle's vertex attributes at the corner coordinates returns the corner's attributes; the interpolation is linear in the coordinates and only the described attributes are written.", "quantifier": "all triangles, barycentric coordinates and attribute layouts", "why_tests_cant": "linearity over all real coordinates", "anchors": ["sources/TriangleMesh.cpp: TriangleMesh::Barycentric, InterpolateBarycentric"]}
{"id": "C27", "title": "Clipping a triangle at a plane partitions it", "statement": "ClipTriangle classifies the triangle; if it is clipped, front and back polygon are convex combinations of the corners (barycentric coordinates non-negative with sum 1), the front polygon lies on the front side and the back polygon on the back side, and both have the documented three or four vertices.", "quantifier": "all triangles and planes", "why_tests_cant": "case analysis over all sign patterns, exact geometric meaning", "anchors": ["include/Geom/TriangleCollision.h: ClipTriangle, ClippedPolygon"]}
{"id": "C28", "title": "Clipping a mesh yields two well-formed halves", "statement": "ClipMesh produces two meshes whose triangles index existing vertices, triangles wholly on one side are copied unchanged, and every triangle of the front (back) mesh lies on the front (back) side of the plane.", "quantifier": "all well-formed meshes and all planes", "why_tests_cant": "unbounded meshes", "anchors": ["sources/MeshModifier.cpp: ClipMesh, FillVertices"]}
{"id": "C29", "title": "Bounding box insertion is a join", "statement": "Starting from a reset box and inserting points or boxes in any order and with repetitions gives the same smallest box containing all of them.", "quantifier": "all point and box lists, all permutations, any totally ordered scalar type; and IEEE floats including NaN", "why_tests_cant": "permutation invariance over unbounded lists", "anchors": ["include/Geom/AABB.h: AABB::Insert, Reset"]}
{"id": "C30", "title": "Box predicates mean what they say", "statement": "Contains is membership, InsideOf is inclusion of point sets for valid boxes, Overlap is symmetric and holds iff the boxes have a common point, Repair yields a valid box and keeps valid boxes.", "quantifier": "all boxes and points over a total order", "why_tests_cant": "equivalences quantified over all points", "anchors": ["include/Geom/AABB.h: AABB::Contains, InsideOf, Overlap, Repair"]}
{"id": "C31", "title": "Vectorized boxes agree with scalar boxes", "statement": "Each lane of VectorizedAABB behaves like the scalar box operation applied to the lane (reset, insert, repair, containment, inclusion, overlap, size, center).", "quantifier": "all lanes and all box values", "why_tests_cant": "lane-wise equivalence over all values", "anchors": ["include/Geom/VectorizedAABB.h", "include/Geom/AABB.h"]}
{"id": "C32", "title": "Box edges enumerate the cube", "statement": "AABB::Edges returns exactly the edges of the box: 4 in 2D, 12 in 3D, each connecting two corners that differ in exactly one coordinate, none twice.", "quantifier": "all boxes", "why_tests_cant": "symbolic corners, all boxes", "anchors": ["include/Geom/AABB.h: AABB::Edges"]}
{"id": "C33", "title": "Ray against box returns the first hit", "statement": "The ray-box test reports a hit exactly when the ray meets the box, and the reported parameter is the first one: the point is in the box and no earlier ray point is.", "quantifier": "all boxes, all rays with direction components outside the parallel tolerance or exactly zero", "why_tests_cant": "first-hit minimality over all ray parameters", "anchors": ["include/Geom/AABBCollision.h"]}
{"id": "C34", "title": "Segment against box overloads agree", "statement": "The boolean segment-box test and the test returning the intersection parameter give the same answer, namely whether the segment meets the box.", "quantifier": "all boxes and segments", "why_tests_cant": "agreement for all lengths of segments", "anchors": ["include/Geom/AABBCollision.h"]}
{"id": "C35", "title": "Bernstein basis is a partition of unity", "statement": "The Bernstein polynomials of a degree are non-negative on [0,1], sum to one, and are symmetric, for every degree whose factorials fit the integer type used.", "quantifier": "all degrees with exact factorials, all parameters", "why_tests_cant": "polynomial identity for all t and degrees; the limit is given by 64-bit factorials", "anchors": ["include/Geom/BernsteinPolynomial.h"]}
{"id": "C36", "title": "Bezier curves interpolate end points and stay in the hull", "statement": "A Bezier curve starts at the first and ends at the last control point, lies in every half space containing the control points, and commutes with affine maps.", "quantifier": "all control polygons of degree up to the factorial limit, all t in [0,1]", "why_tests_cant": "convex hull property quantifies over all half spaces", "anchors": ["include/Geom/BezierCurve.h"]}
{"id": "C37", "title": "Bezier patch addresses its control points faithfully", "statement": "Setting a control point of a patch is read back at the same place and changes no other; the patch evaluates at its four corners to the corner control points and lies in the hull of its control points.", "quantifier": "all orders, all coordinates in range", "why_tests_cant": "injectivity of the index map for all orders", "anchors": ["include/Geom/BezierPatch.h", "include/Geom/BezierTriangle.h"]}
{"id": "C38", "title": "Bezier triangle addresses its control points faithfully", "statement": "Every valid coordinate pair of a Bezier triangle addresses its own control point.", "quantifier": "all orders, all valid coordinates", "why_tests_cant": "index injectivity for all orders", "anchors": ["include/Geom/BezierTriangle.h: GetIndex, SetControlPoint"]}
{"id": "C39", "title": "Uniform spline passes through its points smoothly", "statement": "A uniform spline built from n points takes the i-th point's value at i/(n-1), is clamped outside [0,1], and is continuously differentiable at the inner points.", "quantifier": "all point lists of length >= 2, all parameters", "why_tests_cant": "smoothness and interpolation for unbounded n; involves a tridiagonal solve", "anchors": ["include/Geom/UniformSpline.h"]}
{"id": "C40", "title": "Spline evaluation is a local affine combination", "statement": "B-spline basis values are non-negative and the curve is evaluated from existing control points only, whatever the order and parameter.", "quantifier": "all knot sequences (sorted), orders, parameters", "why_tests_cant": "recursion over the order, all parameters", "anchors": ["include/Geom/Spline.h"]}
{"id": "C41", "title": "Planes contain the points they were built from", "statement": "A plane built from three points contains them, flipping negates all signed distances, normalizing keeps the point set, and the four-scalar constructor describes the documented equation.", "quantifier": "all points and both plane equations", "why_tests_cant": "algebraic identities over all reals", "anchors": ["include/Geom/Plane.h"]}
{"id": "C42", "title": "Plane relations are a trichotomy consistent with distances", "statement": "A point is in front of, behind or on a plane exactly according to its signed distance; a box or sphere is in front of (behind) the plane iff all its points are, and the closest point on the plane is on the plane and nearest.", "quantifier": "all planes, points, boxes, spheres", "why_tests_cant": "quantifies over all points of the box", "anchors": ["include/Geom/PlaneCollision.h"]}
{"id": "C43", "title": "Plane intersections lie on all planes", "statement": "The reported intersection line of two planes lies in both, the intersection point of three planes lies in all three, and an intersection is reported whenever the planes meet in exactly one line or point.", "quantifier": "all planes in general position", "why_tests_cant": "soundness and completeness over all reals", "anchors": ["include/Geom/PlaneCollision.h"]}
{"id": "C44", "title": "Line and ray hits on a plane are on the plane", "statement": "The reported intersection parameter of a line or ray with a plane lies in the allowed range and its point is on the plane, and a hit is reported iff one exists (outside of the parallel case).", "quantifier": "all planes, lines and rays, both plane equations", "why_tests_cant": "completeness over all reals", "anchors": ["include/Geom/PlaneCollision.h"]}
{"id": "C45", "title": "Closest points on segments are closest", "statement": "The closest point on a segment lies on it and no point of the segment is nearer; the connecting segment of two segments has its end points on them and is no longer than any other connection.", "quantifier": "all non-degenerate segments and points", "why_tests_cant": "optimality over all other points", "anchors": ["include/Geom/LineCollision.h", "include/Geom/RayCollision.h"]}
{"id": "C46", "title": "Sphere hits are first hits", "statement": "A reported ray-sphere or line-sphere intersection point lies on the sphere and is the first one along the ray; a hit is reported iff the ray meets the sphere.", "quantifier": "all spheres and rays with unit direction", "why_tests_cant": "first hit over all parameters", "anchors": ["include/Geom/SphereCollision.h"]}
{"id": "C47", "title": "Triangle queries are geometrically exact", "statement": "Point-in-triangle tests (for points in the plane of the triangle), ray-triangle intersection and closest point on a triangle agree with the convex hull of the corners: the reported hit is a convex combination of the corners on the ray, every ray or segment that passes the triangle from its front to its back is reported, and the closest point is at least as near as any point of the triangle.", "quantifier": "all non-degenerate triangles, all points and rays", "why_tests_cant": "optimality over all points of the triangle", "anchors": ["include/Geom/TriangleCollision.h"]}
{"id": "C48", "title": "Barycentric and cartesian coordinates are inverse", "statement": "Converting barycentric coordinates of a non-degenerate triangle to cartesian and back is the identity, in 2D and in 3D (for points in the plane of the triangle). Converting a triangle whose corners are given by such coordinates converts every point of it in the same way.", "quantifier": "all non-degenerate triangles and coordinates", "why_tests_cant": "identity over all reals with a case split on the projection plane", "anchors": ["include/Geom/Triangle.h: BarycentricToCartesian, CartesianToBarycentric"]}
{"id": "C49", "title": "Cached matrices are never stale", "statement": "Projection and the transform classes return the matrix that follows from the last values set, whatever sequence of setters and getters was called.", "quantifier": "all sequences of setter and getter calls", "why_tests_cant": "cache coherence over unbounded histories", "anchors": ["include/Geom/Projection.h", "include/Geom/Transform2.h", "include/Geom/Transform3.h"]}
{"id": "C50", "title": "Turning around a pivot is a rotation about that pivot", "statement": "Turn rotates the position around the pivot by the given rotation, so the distance to the pivot is preserved and turning by zero does nothing.", "quantifier": "all positions, pivots and rotations", "why_tests_cant": "identity over all reals", "anchors": ["include/Geom/Transform2.h: Turn", "include/Geom/Transform3.h: Turn"]}
{"id": "C51", "title": "Mesh generators only append", "statement": "Every generator leaves the vertices and triangles already in the target mesh untouched, and the triangles it adds refer only to vertices it added itself.", "quantifier": "all descriptors (all segment counts), all target meshes", "why_tests_cant": "index arithmetic for all segment counts", "anchors": ["sources/MeshGenerator*.cpp", "include/Geom/MeshGenerator.h"]}
{"id": "C52", "title": "Mesh generators produce exact counts", "statement": "The number of vertices and triangles added by a generator is given by a closed formula of the descriptor, with segment counts clamped to their documented minimum.", "quantifier": "all descriptors", "why_tests_cant": "formulas over all segment counts", "anchors": ["sources/MeshGenerator*.cpp"]}
{"id": "C53", "title": "Generated meshes are consistently oriented manifolds", "statement": "Within a generated mesh no directed edge is used by two triangles, so the triangles of a patch are consistently oriented; closed tubes (curve, torus knot) are watertight: each directed edge has its opposite.", "quantifier": "all descriptors (all segment counts)", "why_tests_cant": "a global property of unboundedly many triangles", "anchors": ["sources/MeshGeneratorDetails.cpp: GenerateTriangulatedQuad", "sources/MeshGeneratorCurve.cpp", "sources/MeshGeneratorTorusKnot.cpp"]}
{"id": "C54", "title": "The alternate grid option changes only diagonals", "statement": "Switching the alternate grid option of a generator leaves vertices, triangle count and the set of quads unchanged.", "quantifier": "all descriptors", "why_tests_cant": "all segment counts", "anchors": ["sources/MeshGeneratorDetails.cpp"]}
{"id": "C55", "title": "Generated vertices lie on the described surface", "statement": "The vertices generated for cuboid, cone, cylinder, pipe, pie, ellipsoid, torus and capsule satisfy the equation of the described surface, and unit normals have length one where the surface is not degenerate.", "quantifier": "all descriptors", "why_tests_cant": "all real dimensions and all grid positions", "anchors": ["sources/MeshGenerator*.cpp"]}
{"id": "C56", "title": "Index arithmetic of generators does not wrap", "statement": "The grid index computed for every vertex of a generated grid is the position of that vertex, for every segment count the descriptor type allows.", "quantifier": "all 32-bit segment counts", "why_tests_cant": "only segment counts near 2^16 or 2^32 exhibit the wrap-around", "anchors": ["sources/MeshGeneratorDetails.cpp", "sources/MeshGenerator*.cpp"]}
{"id": "C57", "title": "Frustum and convex hull membership", "statement": "A point is inside the convex hull iff it is on the inner side of every plane; a sphere reported outside is completely outside of the hull; a frustum built from a view-projection matrix contains exactly the points whose clip coordinates are within the view volume.", "quantifier": "all plane lists, points and spheres", "why_tests_cant": "quantifies over all points", "anchors": ["include/Geom/ConvexHull.h", "include/Geom/Frustum.h"]}
{"id": "C58", "title": "Derived sizes of spheres and cones round-trip", "statement": "Setting a sphere's volume or area, or a cone's angle, and reading it back returns the value set.", "quantifier": "all positive values", "why_tests_cant": "identity over all positive reals", "anchors": ["include/Geom/Sphere.h", "include/Geom/Cone.h"]}
{"id": "C59", "title": "Cone and plane relation is exact", "statement": "A cone is reported in front of or behind a plane iff all of its points are.", "quantifier": "all cones and planes", "why_tests_cant": "quantifies over all points of the cone", "anchors": ["include/Geom/ConeCollision.h"]}
{"id": "C60", "title": "Tangent space is orthogonal to the surface and consistently oriented", "statement": "ComputeTangentSpace returns unit vectors with the tangent and bitangent perpendicular to the normal for non-degenerate triangles, and the bitangent handedness is fixed.", "quantifier": "all non-degenerate triangles with non-degenerate texture coordinates", "why_tests_cant": "identity over all reals", "anchors": ["include/Geom/TangentSpace.h"]}
{"id": "C61", "title": "List-loop playback walks its frame list", "statement": "With the list-loop listener the displayed frames are the entries of the frame list in order, starting over at its end; the playback never stops by itself.", "quantifier": "all frame lists with at least two entries, all delta sequences", "why_tests_cant": "quantifies over all lists and histories of updates", "anchors": ["include/Geom/Playback.h ListLoopPlaybackListener", "sources/Playback.cpp"]}
{"id": "C62", "title": "Displayed and next frame stay in the played range", "statement": "After Play(first, last) and any updates both the displayed frame and the next frame lie between first and last.", "quantifier": "all ranges, listeners and delta sequences", "why_tests_cant": "quantifies over all histories of updates", "anchors": ["include/Geom/Playback.h", "sources/Playback.cpp"]}
{"id": "C63", "title": "Transforming a plane moves its points along", "statement": "TransformPlane by a rigid motion yields the plane of the moved points with the same signed distances, for both plane equations.", "quantifier": "all rigid motions, all planes with unit normal, both plane equations", "why_tests_cant": "quantifies over all motions and planes", "anchors": ["include/Geom/Plane.h TransformPlane"]}
{"id": "C64", "title": "Distance of a box to a plane is the distance of its nearest point", "statement": "DistanceToPlane of an axis-aligned or oriented box is positive iff the plane misses the box, and then it is the smallest distance of a point of the box to the plane; as documented it is never negative.", "quantifier": "all planes with unit normal, all boxes", "why_tests_cant": "smallest over infinitely many points", "anchors": ["include/Geom/PlaneCollision.h DistanceToPlane"]}
{"id": "C65", "title": "Sphere and cone report their volume and area", "statement": "GetVolume of a sphere and a cone is the volume of the solid, and GetArea of a sphere its surface area.", "quantifier": "all spheres with non-negative radius, all cones with non-zero height", "why_tests_cant": "the claim is about a real-valued integral for every radius and height", "anchors": ["include/Geom/Sphere.h: GetVolume, GetArea", "include/Geom/Cone.h: GetVolume"]}
{"id": "C66", "title": "Intersection of two triangles is sound and complete", "statement": "If the intersection of two triangles is reported, the returned segment lies in both triangles; two triangles that are not in one plane and have a common point are always reported.", "quantifier": "all pairs of triangles, in every relative position including touching corners and edges", "why_tests_cant": "quantifies over all points of both triangles; touching configurations have measure zero and are never sampled", "anchors": ["include/Geom/TriangleCollision.h: IntersectionWithTriangle(triangleA, triangleB)"]}
{"id": "C67", "title": "Closest segment between a segment and a triangle is optimal", "statement": "For a segment that does not meet the triangle, ClosestSegmentToTriangle returns a segment from the triangle to the line segment, and no pair of points of the two is closer.", "quantifier": "all non-degenerate triangles and all segments that do not meet them", "why_tests_cant": "optimality over all pairs of points", "anchors": ["include/Geom/TriangleCollision.h: ClosestSegmentToTriangle"]}
{"id": "C68", "title": "Generated solids are closed", "statement": "A mesh generated for a solid with all its covers encloses a volume: comparing corners by their coordinates, every edge is used by as many triangles in one direction as in the other; there are no gaps at seams, caps and covers.", "quantifier": "all descriptors of cuboids, ellipsoids, cones, cylinders, pies, pipes, capsules, tori, torus knots, curves and spirals, all segment counts and extents, both grid kinds", "why_tests_cant": "a gap can appear for one parity or ratio of segment counts only; the number of descriptors is unbounded and seam positions are transcendental", "anchors": ["sources/MeshGenerator*.cpp: Generate*", "include/Geom/MeshGenerator.h"]}
{"id": "C69", "title": "Triangles look outwards", "statement": "The front side of every generated triangle (corners counter-clockwise) is the outer side of the solid and agrees with the normals stored at its corners.", "quantifier": "all descriptors with positive extents, all segment counts, both grid kinds; every triangle of the result", "why_tests_cant": "one wrong winding in one cover or parity culls triangles; needs all descriptors and all triangles", "anchors": ["sources/MeshGenerator*.cpp: Generate*", "sources/MeshGeneratorDetails.cpp: AddTriangulatedQuad"]}
{"id": "C70", "title": "Texture coordinates lie in the image", "statement": "Every vertex of a generated mesh has texture coordinates in [0, 1] x [0, 1], so that a mesh can be used with a texture that is clamped.", "quantifier": "all descriptors, all segment counts; every vertex of the result", "why_tests_cant": "a single vertex of a single cover or seam can leave the range; coordinates are transcendental functions of the segment counts", "anchors": ["sources/MeshGenerator*.cpp: Generate*, texCoord"]}
{"id": "C71", "title": "Textures are not mirrored", "statement": "Seen from outside, a texture appears with the same orientation on every generated triangle: the corners of each triangle have the same sense of rotation in the image.", "quantifier": "all descriptors, all segment counts, both grid kinds; every triangle of the result", "why_tests_cant": "an exchanged coordinate on one cover mirrors the texture there only; needs all triangles of all descriptors", "anchors": ["sources/MeshGenerator*.cpp: Generate*, texCoord", "sources/MeshGeneratorDetails.cpp: AddTriangulatedQuad"]}
{"id": "C72", "title": "Texture coordinates are the parameters of the surface", "statement": "The position of each vertex is the point of the ideal surface at its texture coordinates: angle and height on mantles, the view from above on covers, the two angles on ellipsoids and tori, the parameters of the patch on Bezier patches, the curve parameter on tubes.", "quantifier": "all descriptors, all segment counts; every vertex of the result", "why_tests_cant": "relates two values of every vertex by transcendental functions, for all segment counts", "anchors": ["sources/MeshGenerator*.cpp: Generate*"]}
{"id": "C73", "title": "Tubes follow their curve", "statement": "Around each point of the curve the normals of a generated tube are unit vectors perpendicular to the step to the next point, evenly spaced around it and starting with the upward one; a closed curve ends in the ring it started with.", "quantifier": "all curve functions, radii and segment counts; every ring and vertex", "why_tests_cant": "quantifies over all functions from parameters to points", "anchors": ["sources/MeshGeneratorCurve.cpp: GenerateCurve", "sources/MeshGeneratorTorusKnot.cpp: GenerateTorusKnot"]}
{"id": "C74", "title": "Normals are perpendicular to the surface", "statement": "Each vertex of a generated mesh lies on the smooth surface at its texture coordinates, and its normal is perpendicular to every direction in which one can move on the surface there.", "quantifier": "all descriptors with circular cross sections, every vertex", "why_tests_cant": "lighting that is slightly wrong everywhere looks plausible; perpendicularity ranges over all tangent directions of all shapes", "anchors": ["sources/MeshGenerator*.cpp: Generate*"]}
{"id": "C75", "title": "Bezier patch meshes are lit and wound consistently", "statement": "The normal of each vertex of a generated Bezier patch is the unit vector perpendicular to the chords to nearby points of the patch, turned to the side the descriptor asks for; on flat patches it is perpendicular to the plane and the front of every triangle is on its side.", "quantifier": "all patches, segment counts and sides; flat patches of order 1 to 20", "why_tests_cant": "quantifies over all control points", "anchors": ["sources/MeshGeneratorBezierPatch.cpp: GenerateBezierPatch", "include/Geom/BezierPatch.h: BezierPatch"]}
{"id": "C76", "title": "Bezier curves move in the direction of their control points", "statement": "The velocity of a Bezier curve is the degree times the Bezier curve of the differences of its control points; it starts towards the second and ends coming from the last but one control point.", "quantifier": "all lists of 2 to 21 control points, all parameters", "why_tests_cant": "a derivative is a limit, and quantifies over all control points", "anchors": ["include/Geom/BezierCurve.h: BezierCurve"]}
{"id": "C77", "title": "Torus knots are knots on a torus", "statement": "The curve of a torus knot stays on its torus, goes around the axis `loops` times and around the tube `turns` times, and does not meet itself exactly if these numbers are coprime.", "quantifier": "all torus knot descriptors with an inner radius above 1, all pairs of curve parameters", "why_tests_cant": "no two of infinitely many parameters may give the same point, for all coprime numbers", "anchors": ["sources/MeshGeneratorTorusKnot.cpp: GenerateTorusKnot", "include/Geom/MeshGenerator.h: TorusKnotDescriptor"]}
{"id": "C78", "title": "Center and size describe a box", "statement": "The center of a bounding box plus and minus half of its size are the bounds of the box; for integer boxes the center is an integer in the middle of the box.", "quantifier": "all boxes of any dimension, bounds in any order; all 32-bit integer boxes", "why_tests_cant": "overflow of the sum of bounds depends on all pairs of 32-bit numbers", "anchors": ["include/Geom/AABB.h: AABB::Size, AABB::Center"]}
{"id": "C79", "title": "Oriented boxes contain what they were built from", "statement": "An oriented box built from two corners consists of the points between them; one built from a center and three half axes is the solid these span, and its axes have unit length; updating its half size keeps the solid.", "quantifier": "all corners, centers and half axes, all points", "why_tests_cant": "equality of two infinite sets of points", "anchors": ["include/Geom/OBB.h: OBB, OBB::UpdateHalfSize"]}
{"id": "C80", "title": "Angles and areas of triangles", "statement": "The three angles of a triangle sum up to a half turn and belong to the corners, however these are ordered; the area is half of base times height and adds up when a triangle is divided.", "quantifier": "all triangles with distinct corners in two and three dimensions", "why_tests_cant": "the sum involves three arc cosines and must hold for all triangles, also flat ones", "anchors": ["include/Geom/Triangle.h: Triangle::Angle, Triangle::Area"]}
{"id": "C81", "title": "The matrix of an animated object shows its tracks", "statement": "The matrix sampled from a keyframe sequence between two frames scales, then rotates, then moves by the values of the three tracks at these frames, mixed by the given fraction; nothing of the previous matrix remains, tracks without keyframes have no effect, and frames after the end count as the last one.", "quantifier": "all keyframes with distinct frames in every track, all frames, fractions and previous matrices", "why_tests_cant": "unbounded tracks, and a matrix equation for all points", "anchors": ["sources/KeyframeSequence.cpp: KeyframeSequence::Interpolate, KeyframeSequence::BuildKeys"]}
{"id": "C82", "title": "A playback shows the pose of the frames it plays", "statement": "After Play and any Update calls the matrix sampled with the playback shows the pose between the two frames the elapsed time lies between; a one-shot playback that has ended shows its last frame.", "quantifier": "all keyframe sequences that begin at frame 0, ranges, speeds and sequences of time steps; one-shot, loop (also backward) and ping-pong", "why_tests_cant": "combines unbounded histories of a playback with unbounded tracks", "anchors": ["sources/KeyframeSequence.cpp: KeyframeSequence::Interpolate", "sources/Playback.cpp: Playback::Play, Playback::Update"]}
{"id": "C83", "title": "Volumes of generated solids", "statement": "The triangles of a generated cuboid, ellipsoid, cone, cylinder, pie, pipe, capsule or torus enclose the volume of the solid, with polygons in place of the circles: never more than the solid itself has, and short of it only by a fraction that shrinks with the square of the number of segments.", "quantifier": "all descriptors with all covers, all extents and numbers of segments, both choices of diagonals", "why_tests_cant": "a sum over unboundedly many triangles, and a bound of its distance to a limit", "anchors": ["sources/MeshGeneratorCuboid.cpp: GenerateCuboid", "sources/MeshGeneratorEllipsoid.cpp: GenerateEllipsoid", "sources/MeshGeneratorCone.cpp: GenerateCone", "sources/MeshGeneratorCylinder.cpp: GenerateCylinder", "sources/MeshGeneratorPie.cpp: GeneratePie", "sources/MeshGeneratorPipe.cpp: GeneratePipe", "sources/MeshGeneratorCapsule.cpp: GenerateCapsule", "sources/MeshGeneratorTorus.cpp: GenerateTorus"]}
{"id": "C84", "title": "B-splines are smooth and follow their control points", "statement": "With distinct knots a spline of order q is q - 1 times continuously differentiable between its first and last knot, and from order two on it never goes back along an axis on which its control points advance.", "quantifier": "all numbers of control points, distinct knots and orders, all pairs of curve parameters", "why_tests_cant": "differentiability is a limit and the order is unbounded", "anchors": ["include/Geom/Spline.h: Spline::operator (), Spline::SetOrder"]}
{"id": "C85", "title": "Classification by a plane survives rounding", "statement": "In double precision a point or box is put on the side of a plane it lies on whenever it is farther away than the tolerance plus a stated bound on the rounding error; the side test and the relation without tolerance agree; planes across an axis are exact.", "quantifier": "all planes, points and boxes with components up to 2^500, all tolerances; agreement and axis planes for all finite values", "why_tests_cant": "rounding errors depend on all bits of all inputs", "anchors": ["include/Geom/PlaneCollision.h: SgnDistanceToPlane, RelationToPlane, IsFrontFacingPlane"]}
{"id": "C86", "title": "A view frustum's corners and bounding box", "statement": "The four far corners a frustum reports are the points where its far plane meets two side planes, and its bounding box is the smallest box around the viewer and these corners, so it contains everything between them.", "quantifier": "all frustums, plane equations, tolerances, viewer positions, all points", "why_tests_cant": "quantifies over all positions of a frustum and over the infinitely many points in it", "anchors": ["include/Geom/Frustum.h: Frustum::GetLeftTop, Frustum::GetLeftBottom, Frustum::GetRightTop, Frustum::GetRightBottom, Frustum::GetBoundingBox"]}
{"id": "C87", "title": "The parts of a clipped mesh add up to it", "statement": "The triangles of the front and the back mesh together have the surface of the mesh that was clipped, enclose its volume together, and throw its shadow in every direction: nothing is lost and nothing is in both.", "quantifier": "all meshes, planes, tolerances and directions", "why_tests_cant": "a sum over unboundedly many triangles, each of which may be cut in any position", "anchors": ["sources/MeshModifier.cpp: ClipMesh", "include/Geom/TriangleCollision.h: ClipTriangle"]}
{"id": "C88", "title": "Playback in floating point", "statement": "Whatever the rounding, overflow or NaN in the time arithmetic, a playback shows the frames of its range in order: none is left out, repeated or out of range. In double precision the position reached (frames passed plus interpolator) differs from speed times elapsed time by no more than the rounding of one multiplication and one addition per update, and a one-shot playback stops on time up to that.", "quantifier": "all scalar arithmetics; all ranges, speeds, histories of updates and their lengths", "why_tests_cant": "the error accumulates over histories of any length, and the order of the frames must hold for every rounding", "anchors": ["sources/Playback.cpp: Playback::Update", "sources/Playback.cpp: Playback::Play", "sources/Playback.cpp: EventListener classes"]}
{"id": "C89", "title": "Bounding boxes of generated meshes", "statement": "The bounding box of a generated cuboid, ellipsoid, cone, cylinder, pipe, capsule or torus is exactly the box predicted by its sizes and segment counts: never larger than the shape, equal to the shape's box when the segment counts are multiples of 4, and otherwise smaller by at most a part of pi^2/n^2 for n segments.", "quantifier": "all sizes that are not negative and all segment counts", "why_tests_cant": "which vertex is the farthest depends on the segment counts modulo 4; no finite set of counts settles it", "anchors": ["sources/TriangleMesh.cpp: TriangleMesh::BoundingBox", "sources/MeshGeneratorCuboid.cpp: GenerateCuboid", "sources/MeshGeneratorEllipsoid.cpp: GenerateEllipsoid", "sources/MeshGeneratorCone.cpp: GenerateCone", "sources/MeshGeneratorCylinder.cpp: GenerateCylinder", "sources/MeshGeneratorPipe.cpp: GeneratePipe", "sources/MeshGeneratorCapsule.cpp: GenerateCapsule", "sources/MeshGeneratorTorus.cpp: GenerateTorus"]}
{"id": "C90", "title": "A cut opens a closed mesh only along the plane", "statement": "When a closed mesh is clipped at a plane, each part is closed but for edges that lie in the plane, and the borders of the two parts fit together. When an open mesh is clipped, every border of a part is in the plane or a part of a border of the mesh. The volume of a part of a closed mesh is the same measured from every point of the plane, and the volumes of the parts add up to the volume of the mesh.", "quantifier": "all meshes, planes, tolerances and pairs of points", "why_tests_cant": "cracks and T-junctions appear only for particular positions of neighbouring triangles relative to the plane", "anchors": ["sources/MeshModifier.cpp: ClipMesh", "include/Geom/TriangleCollision.h: ClipTriangle"]}
{"id": "C91", "title": "Rays against boxes in double precision", "statement": "The intersection of a ray with an axis-aligned box is computed in double precision: a reported parameter is finite and not negative, at it the ray is in the box up to a rounding error of the sides (one part in 2^51 of their distance to the origin), and before it the ray is not in the interior by more than that error. A ray that is in the interior by more than that error is reported. A ray that starts in the box is reported at parameter 0 exactly. Components that are not numbers and unbounded components do not restrict the ray. A ray that touches the box is reported, and a box behind the origin is not.", "quantifier": "all boxes and rays with any number of components that are finite doubles up to 2^500, tolerances from 2^-500 on, and lists with NaN or infinite components", "why_tests_cant": "Rounding errors depend on every bit of the operands; examples only show a few of them.", "anchors": ["include/Geom/AABBCollision.h: IntersectionWithAABBInterp", "include/Geom/AABBCollision.h: IntersectionWithAABB"]}
{"id": "C92", "title": "Playing again", "statement": "Playing without naming a speed uses the speed that was last named, and playing without naming a range plays the range that was last named, whatever updates, pauses, stops and frame changes happened in between.", "quantifier": "all histories of calls without assignments to the public fields, all built-in listeners, all ranges, speeds and time steps, exact and floating-point numbers", "why_tests_cant": "Range and speed are fields that listeners and updates may change during any number of calls; a test sees only a few histories.", "anchors": ["sources/Playback.cpp: Playback::Play", "include/Geom/Playback.h: Playback::speed"]}
{"id": "C93", "title": "Cutting triangles in double precision", "statement": "In double precision, a triangle whose corners are clear of the plane by more than the tolerance is reported to be in front or behind exactly if it is, and otherwise it is cut into the right polygons: corners keep their exact positions, and the new corners lie on the edges and on the plane up to a bounded rounding error. Triangles that share an edge are cut at the same point of it.", "quantifier": "all planes and triangles of double precision numbers of moderate size, all tolerances above the rounding errors, both conventions for the plane's distance", "why_tests_cant": "Every coordinate is rounded several times; whether a quotient falls outside 0..1 by one unit in the last place depends on numbers that tests do not hit.", "anchors": ["include/Geom/TriangleCollision.h: ClipTriangle", "include/Geom/PlaneCollision.h: ComputeLineIntersectionInterp", "sources/MeshModifier.cpp: ClipMesh, InterpolateBarycentric"]}
{"id": "C94", "title": "Keyframes in double precision", "statement": "In double precision the position and scale tracks of a sequence show every key exactly at its frame, and between two neighbouring keys each component moves from the one to the other without turning back and without leaving the interval between them. A sample between two frames stays in every box that contains the keys, and with the parameter 1 it shows the second frame.", "quantifier": "all lists of keyframes in any order with distinct frames up to 2^53 and keys up to 2^499, all interpolations of rotations, all sampled frames and parameters", "why_tests_cant": "The interpolated value is rounded three times; whether it overshoots a key depends on the last bits of keys and quotients.", "anchors": ["sources/KeyframeSequence.cpp: BuildInterpolatedKeys, FrameInterpolator, KeyframeSequence::Interpolate"]}
{"id": "C95", "title": "Bezier curves in double precision", "statement": "In double precision a Bezier curve with 2 to 21 control points starts exactly in its first control point and ends exactly in its last one. Everywhere between it is finite and within a relative 2^-45 of the size of the control points from the exact curve, so it stays in every box around the control points up to that slack; it never leaves the box at all.", "quantifier": "all lists of 2 to 21 control points with coordinates up to 2^499, all parameters from 0 to 1, all implementations of std::pow that are accurate to two units in the last place", "why_tests_cant": "The weights are rounded products of two powers and a coefficient, and their errors add up over all control points; whether the ends are hit depends on every weight being exactly 0 or 1.", "anchors": ["include/Geom/BezierCurve.h: BezierCurve::Evaluate", "include/Geom/BernsteinPolynomial.h: BernsteinPolynomial"]}
{"id": "C96", "title": "Culling by hulls and frusta in double precision", "statement": "In double precision, a point that lies farther inside all six sides of the view frustum of a matrix than the rounding slack (one part in 2^48 of the terms of the side's linear form) is reported inside, and one that lies farther than that outside some side is reported outside. A sphere that is reported outside lies completely beyond one side, and one that is reported inside reaches behind every side, up to the same slack. The planes taken from the matrix have normals of length one up to one part in 2^47. Points exactly on the boundary are reported inside.", "quantifier": "all matrices with finite entries up to 2^200 whose six side forms have a linear part of length at least 2^-200, both plane equations, all points with coordinates up to 2^500, all finite radii; for hulls all lists of planes with coefficients up to 2^500", "why_tests_cant": "The planes are sums of matrix rows, scaled by a rounded reciprocal of a rounded square root; a wrong answer appears only for points near a side, with rounding errors that tests do not hit.", "anchors": ["include/Geom/Frustum.h: FrustumT::SetFromMatrix", "include/Geom/ConvexHull.h: ConvexHullT::IsPointInside, ConvexHullT::IsSphereInside", "include/Geom/Plane.h: PlaneT::Normalize"]}
{"id": "C97", "title": "Rays against triangles in double precision", "statement": "In double precision, a ray that passes all three edges of a triangle on the inner side, enters through the front and starts in front of it, each by more than the rounding slack (one part in 2^49 of the terms of the triple product), is reported to hit; a reported hit satisfies these conditions up to the slack. The barycentric coordinates reported with a hit are finite, none is negative, their sum is 1 up to one part in 2^50, and they are the exact ones up to the slack. A ray that hits two triangles of a surface up to their common edge is never reported to miss both.", "quantifier": "all triangles and rays with coordinates up to 2^200 in absolute value, including degenerate ones", "why_tests_cant": "Whether a ray slips through between two triangles, and whether coordinates become infinite or undefined, depends on the signs of rounding errors for rays that pass next to an edge; tests do not meet such rays.", "anchors": ["include/Geom/TriangleCollision.h: IntersectionWithTriangleBarycentric"]}
{"id": "C98", "title": "Generated cylinders and tori in double precision", "statement": "In double precision, with a sine and a cosine that are right up to two roundings, each vertex of a generated cylinder is at most (u + 3) parts in 2^50 of the radius away from the exact point of its column u, and at most one part in 2^50 of the height away from the exact height; each vertex of a generated torus is at most one part in 2^46 of the radii away from the exact point. The first and the last column of a cylinder are at equal heights and the same up to (n + 6) parts in 2^50 of the radius. The rims of the covers are exactly the first and the last row of the mantle.", "quantifier": "all sizes up to 2^1000, all numbers of columns up to 2^20 (tori: up to 2^32), all rows, and all sine and cosine functions of that accuracy", "why_tests_cant": "The angles of a cylinder are added up in a loop, so the error of a vertex depends on the number of columns; whether the seam closes and the covers fit depends on the rounding of 1/n for each n, and tests try a few n with one mathematics library.", "anchors": ["sources/MeshGeneratorCylinder.cpp: GenerateCylinder", "sources/MeshGeneratorTorus.cpp: GenerateTorus", "sources/MeshGeneratorDetails.h: pi_2"]}
{"id": "C99", "title": "Rays against spheres in double precision", "statement": "In double precision, a ray of direction of length 1 (up to rounding) that starts outside a sphere, moves towards its center and whose line passes its inside, each by more than the rounding slack (one part in 2^46 of the squares of the distance and the radius), is reported to hit; a reported hit satisfies these conditions up to the slack. The reported parameter is finite, not negative (below 2^-530 apart, where squares underflow), not beyond the point of the ray that is nearest to the center (up to the slack), and its point is on the sphere up to the slack, also for rays that graze the sphere. The reported point is that point up to two roundings of each coordinate.", "quantifier": "all spheres and rays with coordinates and radii up to 2^200 in absolute value and directions of length 1 up to one part in 2^50 of the square", "why_tests_cant": "The square root of a difference of nearly equal squares loses half of the digits, so whether the reported point is on the sphere for grazing rays, and whether the parameter can become negative, depends on how rounding errors of five steps combine; tests meet only well-conditioned rays.", "anchors": ["include/Geom/SphereCollision.h: IntersectionWithSphereInterp", "include/Geom/SphereCollision.h: IntersectionWithSphere", "include/Geom/Ray.h: Lerp"]}
{"id": "C100", "title": "Texture coordinates and cuboid faces in double precision", "statement": "In double precision, the texture coordinates of generated mantles, covers, Bezier patches, ellipsoids and cuboid faces lie in the image, from 0 to 1 inclusive, whatever the number of segments; those of mantles, grids and faces are at most 2^-51 off, and no two columns or rows ever share a coordinate or change their order. The vertices of a face of a cuboid, before it is turned into place, never lie beyond half of its size, begin exactly at minus half of it, keep their order, and are at most one part in 2^51 of the size off; with up to 48 segments the last column is exactly at half the size.", "quantifier": "all numbers of segments from 1 to 2^32 (2^20 around for covers), all columns and rows, all sizes from 2^-900 to 2^1000, all sine and cosine functions with values from -1 to 1", "why_tests_cant": "Each coordinate is a multiple of a rounded reciprocal; whether n times the rounded 1/n can exceed 1 depends on how the last of two roundings breaks a tie, for every n.", "anchors": ["sources/MeshGeneratorCylinder.cpp: GenerateCylinder", "sources/MeshGeneratorCone.cpp: GenerateCone", "sources/MeshGeneratorPie.cpp: GeneratePie", "sources/MeshGeneratorPipe.cpp: GeneratePipe", "sources/MeshGeneratorCapsule.cpp: GenerateCapsule", "sources/MeshGeneratorBezierPatch.cpp: GenerateBezierPatch", "sources/MeshGeneratorEllipsoid.cpp: GenerateEllipsoid", "sources/MeshGeneratorCuboid.cpp: GenerateCuboid"]}
{"id": "C101", "title": "Uniform splines in double precision", "statement": "In double precision, a uniform spline built from two or more points whose coordinates are at most M in magnitude, with an expansion from -1 to 1, stays within (1022 + 103 n) 2^-53 M of the exact spline through the same points at every parameter, n being the number of pieces; it passes every control point within (1022 + 206 n) 2^-53 M. Every piece begins exactly at its control point and ends within 1022 * 2^-53 M of the next, however many points there are. For parameters up to 0 the result is exactly the first point; from 1 on it is within 1022 * 2^-53 M of the last. A parameter that is not a number leads to undefined behaviour.", "quantifier": "all lists of 2 to 2^32 points with finite coordinates up to M, all M from 2^-900 to 2^1000, all expansions from -1 to 1, all finite and infinite parameters", "why_tests_cant": "The slopes come from a recursion forwards and backwards through all points; whether its rounding errors grow with the number of points cannot be seen from samples.", "anchors": ["include/Geom/UniformSpline.h: UniformSpline::Build, BuildDimension, Evaluate, Polynomial::Evaluate"]}
{"id": "C102", "title": "B-splines in double precision", "statement": "In double precision, a B-spline whose n control points have coordinates up to M, whose knots are in order and equal or at least 2^-500 apart, and whose order q is at most 100, is evaluated at every parameter within (6 q + 2 n + 2) 2^-53 M of the exact curve. A control point affects the computed result only between the q-th knot before it and the knot after it; elsewhere the result has the same bits, up to the signs of zeros. Control points without negative coordinates never lead to negative coordinates, and outside the knots the result is exactly the origin.", "quantifier": "all non-empty lists of up to 2^20 control points with finite coordinates up to M, all M from 2^-900 to 2^1000, all knots and parameters up to 2^500, all orders up to 100", "why_tests_cant": "The basis functions are computed by a recursion with divisions by knot differences; that cancellation there never amplifies the errors, for any knots, cannot be tested.", "anchors": ["include/Geom/Spline.h: Spline::Evaluate, BernsteinPolynomial, Interval, Idx"]}
{"id": "C103", "title": "Closest points on segments in double precision", "statement": "In double precision, for points whose coordinates are at most M and a segment not shorter than 2^-200, the computed closest point is in each coordinate within 110 * 2^-53 M of the true nearest point of the segment, no point of the segment is nearer by more than 192 * 2^-53 M, and the computed distance is within 250 * 2^-53 M of the true one. A point that projects clearly beyond an end gives that end exactly. The result may lie beyond an end by a rounding error, and for segments so short that their squared length underflows it is not a number.", "quantifier": "all segments and points with finite coordinates up to M, all M up to 2^200, all segments of length at least 2^-200", "why_tests_cant": "The direction is normalized with a rounded length and the projection multiplied back; errors must be bounded for all positions, also when the segment is tiny compared with its distance from the origin.", "anchors": ["include/Geom/LineCollision.h: ClosestPointOnLine, DistanceToLine"]}
{"id": "C104", "title": "Bezier patches in double precision", "statement": "In double precision a Bezier patch of order 1 to 20 is finite everywhere and in each coordinate within 2^-43 times the size of its control points from the exact patch. Along each side it is exactly the Bezier curve that the library computes for the control points of that side, so two patches that share these control points meet without gaps, and the corners are exactly the control points there. The patch stays in every box around its control points up to the rounding error; it never leaves that box at all.", "quantifier": "all patches of order 1 to 20 with finite control points of sizes from 2^-900 to 2^1000, all parameters from 0 to 1, all implementations of std::pow that are accurate to two units in the last place", "why_tests_cant": "Up to 441 rounded terms with products of rounded weights are added; whether neighbouring patches meet without cracks depends on every vanishing weight being exactly zero and every other weight being unchanged by a factor of one, for every parameter along the side.", "anchors": ["include/Geom/BezierPatch.h: BezierPatch::Evaluate, GetControlPoint", "include/Geom/BernsteinPolynomial.h: BernsteinPolynomial", "include/Geom/BezierCurve.h: BezierCurve::Evaluate"]}
{"id": "C105", "title": "Hits of planes in double precision", "statement": "In double precision a segment with both ends clearly on one side of a plane does not meet it, one with ends clearly on different sides does, and a reported point is, whatever the angle, finite, within a few roundings of a point of the segment, and off the plane by no more than one part in 2^47 of the terms of the distances of the ends. A ray that clearly leads towards the plane meets it and one that clearly leads away does not (unless its direction is 2^1000 times longer than the distance), and a finite point reported for it is close to the ray and to the plane. For a normal of length one up to rounding, the computed closest point of a plane is in each coordinate within 80 * 2^-53 M of the nearest point of the plane.", "quantifier": "all planes, segments and rays whose numbers are at most about 2^500, also when nearly parallel to the plane; for closest points all planes with normals of nearly unit length and all points up to M, M from 2^-900 to 2^400", "why_tests_cant": "The quotient of the distance and the cosine can be arbitrarily wrong for flat angles; that the reported point is nevertheless on the plane has to be shown for all angles and magnitudes.", "anchors": ["include/Geom/PlaneCollision.h: IntersectionWithPlane, IntersectionWithPlaneInterp, ClosestPointOnPlane"]}
{"id": "C106", "title": "Vertices of ellipsoids and cones in double precision", "statement": "With sine and cosine right up to two roundings, every vertex of a generated ellipsoid is in each coordinate within 2^-46 of the radius of the exact point, the vertices satisfy the equation of the ellipsoid up to 2^-43, the first and last column are within 2^-45 of the radius of each other, and the vertices of the first and last ring are within 2^-46 of the poles. The vertices of the mantle and the bottom of a cone are within (u + 3) parts in 2^50 of the radius of the exact ones in column u. For up to 48 rows and rings the rim of the bottom consists of exactly the vertices of the last row of the mantle; with 49 rings it does not.", "quantifier": "all numbers of segments up to 2^32 (columns of cones up to 2^20), all radii and heights up to 2^1000, all columns and rows, all implementations of sine and cosine with that accuracy", "why_tests_cant": "errors of summed angles grow with the number of columns; whether mantle and bottom share their rim depends on the rounding of v * (1 / n) for each n", "anchors": ["sources/MeshGeneratorEllipsoid.cpp: GenerateEllipsoid", "sources/MeshGeneratorCone.cpp: GenerateCone"]}
{"id": "C107", "title": "Vertices of pipes in double precision", "statement": "With sine and cosine right up to two roundings, the vertices of the outer and inner mantle of a generated pipe are in column u within (u + 3) parts in 2^50 of the radius of the exact points, and those of the bottom and top cover within (u + 4) parts in 2^50 of the sum of the radii. The inner rims of the covers consist of exactly the vertices of the inner mantle. The outer rims are at exactly the height of the outer mantle and within 2^-50 of the sum of the radii of its vertices, but not always the same: with outer radius 0.9 and inner radius 0.2 there is a gap.", "quantifier": "all numbers of columns up to 2^20, all numbers of rows and rings (rims: up to 48), all radii up to 2^498 and heights up to 2^1000, all implementations of sine and cosine with that accuracy", "why_tests_cant": "whether cover and mantle share their rim depends on the rounding of (outer - inner) + inner, which is right for most radii that a test would try", "anchors": ["sources/MeshGeneratorPipe.cpp: GeneratePipe"]}
{"id": "C108", "title": "Half-spheres of capsules in double precision", "statement": "With sine and cosine right up to two roundings for angles up to 8, every vertex of the half-spheres of a generated capsule is within 2^-46 of the radius of the exact point in x and z and within 2^-46 of the sum of radius and height in y; the first and last column are within 2^-45 of the radius of each other, and the vertices of the first ring within 2^-46 of the pole. The last ring of the half-sphere is close to the rim of the mantle: column u of the top half-sphere to column n - u of the first row, column u of the bottom one to column u of the last row. They are not the same: with height 1 and vertical radius 4 the half-sphere starts above the mantle.", "quantifier": "all numbers of segments up to 2^32 (columns up to 2^20 where compared with the mantle), all radii and heights up to 2^1000, all columns and rings, all implementations of sine and cosine with that accuracy", "why_tests_cant": "mantle and half-spheres compute the same points in different ways, with summed angles and with products; how far the results can be apart is a statement about all numbers of segments", "anchors": ["sources/MeshGeneratorCapsule.cpp: GenerateCapsule"]}
{"id": "C109", "title": "Texture coordinates of pipe covers in double precision", "statement": "If the inner radii of a pipe are not larger than the outer ones and sine and cosine never leave [-1, 1], all texture coordinates of the covers computed in double precision are in the image [0, 1] x [0, 1], in spite of all roundings, and within 2^-49 of the point that belongs to the angle and the ring. For radii so small that one over twice the radius overflows this fails.", "quantifier": "all numbers of columns up to 2^20 and rings up to 2^32, all outer radii between 2^-990 and 2^990, all inner radii up to the outer one, all columns and rings, both covers, all functions sine and cosine with values in [-1, 1]", "why_tests_cant": "the outer rim lies exactly on the border of the image, where one rounding in the wrong direction would leave it; (s * r) * (1 / (2 * r)) and the interpolation with share 1 can both round up", "anchors": ["sources/MeshGeneratorPipe.cpp: GeneratePipe"]}
{"id": "C110", "title": "Barycentric coordinates in double precision", "statement": "The conversion from barycentric to cartesian coordinates in double precision is accurate to one part in 2^51 of its terms, maps (1, 0, 0), (0, 1, 0) and (0, 0, 1) to exactly the corners, and with the weights of a point of the triangle stays between the corner values up to rounding (but not exactly, not even if the three values are equal). The conversion from cartesian to barycentric coordinates satisfies, in one of the coordinate planes in which the projection is largest up to rounding, the equations of barycentric coordinates up to rounding; its results add up to 1 up to rounding, vanish exactly where they should at the corners, and are exactly (0, 0, 1) at the third corner. At the first corner the first coordinate need not be 1.", "quantifier": "all triangles, weights and points with coordinates up to 2^499 in magnitude whose results are finite", "why_tests_cant": "clipping and interpolation rely on corners being reproduced and on values staying in range; whether that survives the roundings depends on every bit of the input", "anchors": ["include/Geom/Triangle.h: Triangle::BarycentricToCartesian, Triangle::CartesianToBarycentric, Details::TriangleArea2D", "sources/MeshModifier.cpp: InterpolateBarycentric"]}
{"id": "C111", "title": "Distances to planes in double precision", "statement": "DistanceToPlane of an axis-aligned box, computed in double precision, is the smallest distance of a point of the box up to rounding: no point of the box is closer than the result minus the slack, and some point is as close as the result plus the slack or on the plane. So a result larger than the slack means that the plane misses the box, and one below minus the slack that it meets the box. DistanceToPlane of a point is never negative and as accurate as that; ClosestPointOnPlane is the foot of the perpendicular up to rounding. The documented \"unsigned\" distance of a box can be negative.", "quantifier": "all planes and boxes with components up to 2^499 in magnitude, both plane equations, all points", "why_tests_cant": "the distance of a box is a difference of two rounded sums built from a rounded center and extent; errors could add up and turn a miss into a hit", "anchors": ["include/Geom/PlaneCollision.h: DistanceToPlane, ClosestPointOnPlane", "include/Geom/AABB.h: AABB::Center"]}
{"id": "C112", "title": "Distances of oriented boxes to planes in double precision", "statement": "DistanceToPlane of an oriented box, computed in double precision, is the smallest distance of a point of the box to the plane up to rounding: no point of the box is closer than the result minus the slack, and some point is as close as the result plus the slack or on the plane. So a result larger than the slack means that the plane misses the box, and one below minus the slack that it meets the box. The axes need not be perpendicular or of length 1.", "quantifier": "all planes and oriented boxes with coordinates up to 2^499, normals and axes up to 2^249 in magnitude and half sizes that are not negative, both plane equations, all points of the box", "why_tests_cant": "the radius is a sum of products of rounded dot products; no finite set of boxes shows that their errors never turn a miss into a hit", "anchors": ["include/Geom/PlaneCollision.h: DistanceToPlane", "include/Geom/OBB.h: OBB"]}
{"id": "C113", "title": "Planes through points and flipped planes in double precision", "statement": "A plane built in double precision with a member point, or with three points, has signed distance exactly 0 to the member point (the first of the three points) and classifies it as a point of the plane however small the tolerance is, in spite of all roundings and however the normal is normalized. The other two points need not be on the plane. Flipping a plane exactly negates the signed distances of all points and exchanges front and back.", "quantifier": "all normals, points, planes and tolerances for which the dot product is finite, both plane equations, all ways to normalize a vector", "why_tests_cant": "equality with 0 is destroyed by a single differing rounding; that building and classifying round alike for every input cannot be tested", "anchors": ["include/Geom/Plane.h: PlaneT::Build, PlaneT::UpdateDistance, PlaneT::Flip, PlaneT::Flipped", "include/Geom/PlaneCollision.h: SgnDistanceToPlane, RelationToPlane, IsFrontFacingPlane"]}
{"id": "C114", "title": "Normals of triangles in double precision", "statement": "The components of the normal (not normalized) of a triangle, computed in double precision, differ from those of the exact normal of the given corners by at most one part in 2^48 of the square of the triangle's size. Exchanging the second and the third corner exactly negates the normal, in spite of all roundings, and the normal of a triangle with two equal corners is exactly zero. Starting at another corner can change the normal, though, even from zero to a normal that is not zero.", "quantifier": "all triangles whose coordinates are finite and stay far from overflow", "why_tests_cant": "the roundings of differences, products and cancelling sums have to be bounded for all triangles, in particular for slivers; equality of rounded results cannot be settled by samples", "anchors": ["include/Geom/Triangle.h: TriangleT::Normal"]}
{"id": "C115", "title": "Points of rays in double precision", "statement": "The point of a ray for a parameter t, computed in double precision, is the origin plus t times the direction up to about one part in 2^51 of the two terms. At t = 0 it is exactly the origin. When t grows, no coordinate of the point ever moves against the direction of the ray, in spite of all roundings; but the point need not move at all although t grows.", "quantifier": "all rays and parameters whose numbers are finite and stay far from overflow", "why_tests_cant": "monotonicity compares the rounded results of all pairs of parameters, and the error bound has to hold for all magnitudes and for cancelling terms", "anchors": ["include/Geom/Ray.h: Ray::Lerp, Ray::operator ()"]}
