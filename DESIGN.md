# Design

This is the plan written before the proofs; it is kept up to date as the development grows.

## What is modelled

The subject is GeometronLib (C++ library, headers in `/repo/include/Geom`, sources in `/repo/sources`).
The model consists of total Gallina functions, one per C++ function, in `rocq/theories/Model`.
Each definition cites the file and the lines it models.  Loops become structural recursion, folds
or fuelled recursion with an explicit out-of-fuel outcome.  Undefined behaviour (out-of-bounds
access, use of an invalidated iterator, division of integers by zero) and exceptions are distinct outcomes.

* Scalars (`Gs::Real`, template parameter `T`) are real numbers (Coq `R`): rounding is not modelled, except where a
  property is about floating point, where IEEE binary64 (Flocq) is used.
* `std::size_t` and `uint32` are `Z`/`N`/`nat` with the wrap-around written out where values can reach the limit.
* GaussianLib (`Gs::`) is a submodule that is absent from the repository.  Its vector, matrix and quaternion operations are modelled
  by their mathematical meaning, or are Section variables whose assumed laws appear as hypotheses of the theorem.

## Layout

* `Model/*.v`   the model, definitions only.
* `Spec/*.v`    small independent specifications used in theorem statements.
* `Proofs/*.v`  lemmas.
* `Props/*.v`   only the property theorems, closed by `exact`, with `Print Assumptions` and a non-vacuity example each.

A property that is false of the code is stated as `..._refuted` with a concrete witness, beside a
theorem for the part that does hold.

## Properties

* **C01 Playback notifications describe the state**. Model: Model/Playback.v: state machine with an event log; listeners are functions called from inside the model with the Playback as argument. Proof: Induction over the op list; invariant `last event of the log = state`.
* **C02 One-shot playback visits every frame of its range once, then stops**. Model: same model, one-shot listener. Proof: Refinement to a counter spec: frame = min(last, first + floor(total time)); induction over the deltas and over the inner while loop.
* **C03 Looping playback cycles through its range forever**. Model: same model, loop listener. Proof: Invariant frame = first + k mod n over the step count k.
* **C04 Ping-pong playback bounces inside its range**. Model: same model, ping-pong listener. Proof: Refinement to a triangle wave; single frame range is a refutation.
* **C05 Frame interpolator stays in the unit interval and is time-additive**. Model: same model over R; the range of the interpolator also over binary64. Proof: Invariant: steps + interpolator = accumulated time; uniqueness of floor/fraction.
* **C06 Pausing is transparent**. Model: same model. Proof: Direct, from the no-op lemma for Update.
* **C07 Backward playback mirrors forward playback**. Model: same model. Proof: Expected to fail for one-shot: refutation by a witness, plus what holds.
* **C08 Updating a playback always terminates**. Model: Update over IEEE binary64 (Flocq) next to the real model. Proof: Termination over R by the Archimedean bound; over binary64 an exact condition: x-1=x from 2^53+4 on.
* **C09 Keyframe tracks interpolate their keyframes**. Model: Model/Keyframe.v: the loop with its cursor, size_t frames as Z. Proof: Invariant of the cursor over the frame loop; refutation for begin > 0; positive theorem for begin = 0.
* **C10 All keyframe tracks cover the same frame range**. Model: same. Proof: Bounds by min/max induction.
* **C11 Sampling a keyframe sequence is clamped and memory safe**. Model: same; out-of-range reads are a UB outcome. Proof: Invariant over histories; refutation after ClearKeys.
* **C12 Rebuilding keys depends only on the new keyframes**. Model: same; std::vector::resize(n, v) keeps old elements. Proof: Refutation for empty tracks; positive for non-empty tracks.
* **C13 Joint enumeration is the preorder of the joint forest**. Model: Model/Skeleton.v: rose trees. Proof: Structural induction.
* **C14 Transform buffers are filled within bounds**. Model: buffer as list; writes out of range are UB. Proof: Structural induction with offset accounting.
* **C15 Joint matrices are products along the path to the root**. Model: matrices as abstract monoid (Section variable with hypotheses) and as a concrete 4x4/affine instance. Proof: Structural induction.
* **C16 Bind pose is neutral and joint space is invertible**. Model: same with inverse. Proof: Group laws.
* **C17 Removing a joint returns that joint and detaches its subtree**. Model: the erase-then-move sequence on a list of owners; reading at end() is UB. Proof: Refutation with witness; characterisation of what is returned.
* **C18 Copying a skeleton duplicates its structure**. Model: heap-free trees with parent flags. Proof: Structural induction.
* **C19 Edge list of a mesh is exact**. Model: Model/Mesh.v: std::set<Edge> as sorted insertion. Proof: Sortedness + membership induction.
* **C20 Silhouette edges are the non-shared or sharply bent edges**. Model: same with normals over R. Proof: Per-edge characterisation.
* **C21 Triangle neighborhood is the breadth-first ball**. Model: same; recursion over depth. Proof: Two-way inclusion with inductive path relation.
* **C22 Searching triangles by vertex or edge is exact**. Model: same. Proof: filter/seq lemma.
* **C23 Appending meshes preserves both parts**. Model: same; uint32 wrap explicit. Proof: List lemmas.
* **C24 Mesh bounding box is tight**. Model: fold of Insert. Proof: Tightness from AABB theorems.
* **C25 Multi-threaded bounding box equals the sequential one**. Model: worker partition of the index range; workers as interleaved step lists, result by join. Proof: Interleaving invariant + lattice laws.
* **C26 Barycentric interpolation of vertices**. Model: vertex as list of reals with strides. Proof: Ring identities.
* **C27 Clipping a triangle at a plane partitions it**. Model: Model/Clip.v. Proof: Case analysis over sign patterns.
* **C28 Clipping a mesh yields two well-formed halves**. Model: same with mesh model. Proof: Induction over the triangles.
* **C29 Bounding box insertion is a join**. Model: Model/Aabb.v, generic in the order; instances R, Z, IEEE binary64. Proof: Lattice laws.
* **C30 Box predicates mean what they say**. Model: same. Proof: Order reasoning.
* **C31 Vectorized boxes agree with scalar boxes**. Model: Model/VecAabb.v (masks), Model/VecAabbFloat.v (lanes as IEEE binary32). Proof: Lane-wise equality over any order; the processor's comparison is one (Proofs/VecAabbFloatLemmas.v); halving by * 0.5f and / 2 round the same number; refutations.
* **C32 Box edges enumerate the cube**. Model: same. Proof: Finite enumeration of symbolic corners.
* **C33 Ray against box returns the first hit**. Model: Model/Coll.v over R. Proof: Slab argument.
* **C34 Segment against box overloads agree**. Model: same. Proof: Refutation with witness; positive for unit-length segments.
* **C35 Bernstein basis is a partition of unity**. Model: Model/Bezier.v; factorial with mod 2^64. Proof: Binomial theorem.
* **C36 Bezier curves interpolate end points and stay in the hull**. Model: same. Proof: Convexity.
* **C37 Bezier patch addresses its control points faithfully**. Model: same. Proof: Index injectivity, linear integer arithmetic.
* **C38 Bezier triangle addresses its control points faithfully**. Model: same. Proof: Refutation for order 3; positive for order <= 2.
* **C39 Uniform spline passes through its points smoothly**. Model: Model/UniformSpline.v. Proof: Tridiagonal recurrence; polynomial end values.
* **C40 Spline evaluation is a local affine combination**. Model: Model/Spline.v. Proof: Induction over the order.
* **C41 Planes contain the points they were built from**. Model: Model/Plane.v. Proof: Ring/field identities; refutation of the constructor.
* **C42 Plane relations are a trichotomy consistent with distances**. Model: same. Proof: Case analysis on signs.
* **C43 Plane intersections lie on all planes**. Model: same. Proof: Ring/field; refutation for the negative ray parameter.
* **C44 Line and ray hits on a plane are on the plane**. Model: same. Proof: Field.
* **C45 Closest points on segments are closest**. Model: Model/Coll.v. Proof: Convex quadratic minimisation.
* **C46 Sphere hits are first hits**. Model: Model/Coll.v. Proof: Quadratic equation.
* **C47 Triangle queries are geometrically exact**. Model: Model/Tri.v. Proof: Voronoi regions; Cauchy-type inequalities.
* **C48 Barycentric and cartesian coordinates are inverse**. Model: Model/Tri.v. Proof: Field.
* **C49 Cached matrices are never stale**. Model: Model/Caches.v. Proof: Invariant over op lists.
* **C50 Turning around a pivot is a rotation about that pivot**. Model: same. Proof: Refutation for 2D; positive for 3D.
* **C51 Mesh generators only append**. Model: Model/MeshGen.v: all twelve generators; 32-bit counters wrap, a loop up to 2^32-1 is endless, a triangle out of range fails an assertion. Proof: Every generator appends a list of pieces (vertices and relative triangles); induction over the loops.
* **C52 Mesh generators produce exact counts**. Model: same. Proof: Counting lemmas.
* **C53 Generated meshes are consistently oriented manifolds**. Model: same. Proof: Injectivity of directed edges of a grid.
* **C54 The alternate grid option changes only diagonals**. Model: same. Proof: Per-quad comparison.
* **C55 Generated vertices lie on the described surface**. Model: same over R. Proof: Trigonometric identities.
* **C56 Index arithmetic of generators does not wrap**. Model: uint32 arithmetic explicit. Proof: Bounds; refutation at the limit.
* **C57 Frustum and convex hull membership**. Model: Model/Plane.v. Proof: Order reasoning.
* **C58 Derived sizes of spheres and cones round-trip**. Model: Model/Coll.v. Proof: Real analysis of cube root/atan.
* **C59 Cone and plane relation is exact**. Model: Model/Plane.v. Proof: Extremal point of a disk; refutation behind the plane.
* **C60 Tangent space is orthogonal to the surface and consistently oriented**. Model: Model/Tangent.v. Proof: Ring.
* **C61 List-loop playback walks its frame list**. Model: Model/Playback.v, list playback. Proof: Invariant over the list cursor.
* **C62 Displayed and next frame stay in the played range**. Model: Model/Playback.v. Proof: Event log invariant.
* **C63 Transforming a plane moves its points along**. Model: Model/Plane.v. Proof: Field identities.
* **C64 Distance of a box to a plane is the distance of its nearest point**. Model: Model/Plane.v. Proof: Extremal corner of a box along the normal.
* **C65 Sphere and cone report their volume and area**. Model: Model/Coll.v. Proof: Field identities against the textbook formulas.
* **C66 Intersection of two triangles is sound and complete**. Model: Model/Tri.v. Proof: Sound: the reported points are hits of edges. Complete: walk along the common line until an edge of either triangle is left.
* **C67 Closest segment between a segment and a triangle is optimal**. Model: Model/Tri.v. Proof: A closest pair has one point on a corner or an edge; the code tries all of them.
* **C68 Generated solids are closed**. Model: Model/MeshGen.v (all generators), Spec/ClosedSpec.v (directed edges between coordinates, counted in both directions). Proof: Every patch is a chain; the sum of an antisymmetric function over the edges of a grid is the sum over its boundary (Proofs/MeshGenChains.v); boundaries of neighbouring patches cancel (Proofs/MeshGenClosed.v). For spirals the vector area of the boundary shows that a fractional last segment leaves a gap.
* **C69 Triangles look outwards**. Model: Model/MeshGen.v, Spec/WindingSpec.v (front of a triangle, faces a direction). Proof: Every grid cell is a planar trapezoid with an explicit normal; its products with the stored normals and with the positions are computed symbolically (Proofs/MeshGenWinding.v). Spirals and tubes around curves: every triangle has the front of the ring it starts from (Proofs/MeshGenSpiral.v, MeshGenTube.v).
* **C70 Texture coordinates lie in the image**. Model: Model/MeshGen.v, Spec/TextureSpec.v (in_image, fitted). Proof: Range of the coordinates of each part: fractions, points of a disc, interpolations of these (Proofs/MeshGenTexture.v). Tori refuted: their first coordinate is negated.
* **C71 Textures are not mirrored**. Model: Model/MeshGen.v, Spec/TextureSpec.v (image_area, upright). Proof: In the image every cell is a trapezoid with a determinant of fixed sign: affine coordinates on mantles, sectors of a disc on covers (Proofs/MeshGenTexture.v). Pipes mirror on the inner mantle, tubes everywhere.
* **C72 Texture coordinates are the parameters of the surface**. Model: Model/MeshGen.v, Spec/ChartSpec.v (position as a function of the texture coordinates). Proof: Case analysis over the parts; trigonometric identities (Proofs/MeshGenCharts.v).
* **C73 Tubes follow their curve**. Model: Model/MeshGen.v curve_vertex, Spec/CurveSpec.v. Proof: The first normal is the component of the upward vector perpendicular to the tangent; rotation by Rodrigues' formula (Proofs/MeshGenCurve.v). Vertical steps and open curves refuted.
* **C74 Normals are perpendicular to the surface**. Model: Model/MeshGen.v, Spec/NormalSpec.v (smooth parts of each surface, velocity of a motion, perpendicular). Proof: Partial derivatives of each part by Coquelicot; the product of the stored normal with both vanishes by trigonometry (Proofs/NormalTangents.v, MeshGenNormals.v). Cones, spirals, ellipsoids and elliptic cylinders refuted, with the exact condition for cones and spirals.
* **C75 Bezier patch meshes are lit and wound consistently**. Model: Model/MeshGen.v bezier_vertex, Model/Bezier.v, Spec/BezierSpec.v flat_sheet. Proof: Cross product of the chords; flat patches by linear precision, cells are parallelograms (Proofs/MeshGenBezier.v).
* **C76 Bezier curves move in the direction of their control points**. Model: Model/Bezier.v curve, Spec/BezierSpec.v steps. Proof: Derivative of the de Casteljau recursion by induction on the degree (Proofs/BezierFlat.v).
* **C77 Torus knots are knots on a torus**. Model: Model/MeshGen.v knot_curve, Spec/KnotSpec.v. Proof: Equal sines and cosines give angles that differ by full turns; Bezout's identity (Proofs/KnotLemmas.v).
* **C78 Center and size describe a box**. Model: Model/Shapes.v size_real, center_real, size_int, center_int (signed overflow is undefined), Spec/ShapeSpec.v. Proof: Induction over the components. The integer center is refuted where the sum of the bounds overflows, with the exact condition.
* **C79 Oriented boxes contain what they were built from**. Model: Model/Shapes.v obb_of_corners, obb_of_axes, update_half_size, Spec/PlaneSpec.v in_obb. Proof: Equality of point sets by rescaling the coordinates. A second update and flat boxes refuted.
* **C80 Angles and areas of triangles**. Model: Model/Shapes.v tri_angle, tri_area2. Proof: Sine and cosine of the sum of two angles by Lagrange's identity; the full turn is excluded by signs (Proofs/ShapeLemmas.v).
* **C81 The matrix of an animated object shows its tracks**. Model: Model/Animation.v interpolate_matrix, on top of Model/Keyframe.v and Model/Transforms.v; Spec/AnimationSpec.v (pose of three tracks, between, shows). Proof: Values of the tracks from C09, clamping by the fact that a track is constant after its last keyframe; the matrix by ring identities. Late start and ClearKeys refuted.
* **C82 A playback shows the pose of the frames it plays**. Model: Model/Animation.v interpolate_playback, on top of Model/Playback.v. Proof: C02, C03, C04 and C07 give frame, next frame and fraction; C81 the pose. The end of a one-shot playback from the invariant of its proof.
* **C83 Volumes of generated solids**. Model: Spec/VolumeSpec.v: signed volume of triangles, polygons in place of circles, exact volumes; the generators as in C51. Proof: Cells of surfaces of revolution are flat; their contributions factor into a profile part, which telescopes, and the sine of the step (Proofs/MeshGenVolume.v). Bounds from sin x >= x - x^3/6. Spirals: covers are in planes through the origin, and what the rise adds depends on the diagonals only (Proofs/MeshGenSpiralVolume.v).
* **C84 B-splines are smooth and follow their control points**. Model: Model/Spline.v as in C40; Spec/SplineSpec.v times_smooth, rising. Proof: Derivative of a basis function as a difference of basis functions of one order less, by induction; at knots by continuity of the derivative. Rising: Abel summation and the mean value theorem (Proofs/SplineSmooth.v).
* **C85 Classification by a plane survives rounding**. Model: Model/PlaneFloat.v: the functions of PlaneCollision.h over binary64; Spec/FloatSpec.v (exact counterparts, slack). Proof: Rounding error of each operation by Flocq, summed up by linear arithmetic; subtraction with gradual underflow never rounds a difference to zero (Proofs/PlaneFloatLemmas.v).
* **C86 A view frustum's corners and bounding box**. Model: Model/FrustumBox.v GetBoundingBox on top of the corners of Model/Plane.v; Spec/FrustumSpec.v (corner as common point of three planes, least box, pyramid). Proof: The intersection line of two planes starts at its foot of the origin, so the ray test keeps a corner exactly if its product with the direction is not negative; identities by nsatz for rectangular far sides (Proofs/FrustumLemmas.v).
* **C87 The parts of a clipped mesh add up to it**. Model: Model/Clip.v; Spec/ClipAreaSpec.v (surface, enclosed volume, shadow). Proof: The orientations of the fans of both polygons sum up to one in every case of the clipping, by nonlinear arithmetic; surface, volume and shadow are proportional to the orientation (Proofs/ClipAreaLemmas.v).
* **C88 Playback in floating point**. Model: Model/Playback.v over any scalar, and over Flocq's binary64. Proof: The state after k steps is a function of k and the interpolator, for any arithmetic (Proofs/PlaybackAny.v); subtracting one is exact up to 2^53, so only the advance rounds (Proofs/PlaybackDrift.v).
* **C89 Bounding boxes of generated meshes**. Model: Model/MeshGen.v with BoundingBox of Model/Mesh.v over the reals with limits -M and M. Proof: The farthest division point of a circle cut into n parts depends on n mod 4 (Proofs/CircleLemmas.v); every vertex is inside and each face is touched (Proofs/MeshGenExtent.v), then C24.
* **C90 A cut opens a closed mesh only along the plane**. Model: Model/Clip.v; closedness as in C68. Proof: Sums of antisymmetric functions over directed edges: what is left of an edge does not depend on its direction.
* **C91 Rays against boxes in double precision**. Model: Model/BoxRayFloat.v: the loop over the slabs in binary64, any number of components. Proof: The loop computes the least common parameter of intervals whose ends are monotone in the sides; error analysis of the ends.
* **C92 Playing again**. Model: Model/Playback.v, Spec/ReplaySpec.v (the range and speed last named). Proof: An invariant of every step: the fields hold the range and speed last named, swapped at most by the ping-pong listener (Proofs/PlaybackReplay.v).
* **C93 Cutting triangles in double precision**. Model: Model/ClipFloat.v (IEEE binary64), Spec/ClipFloatSpec.v (parts of a triangle, allowances). Proof: Rounding error bounds of the distances and of their difference decide that the quotient is in 0..1 exactly if the corners are on different sides (Proofs/ClipFloatLemmas.v); eight patterns of sides.
* **C94 Keyframes in double precision**. Model: Model/KeyframeFloat.v: the model of C09 with keys in IEEE binary64 and the rounded quotient of frames. Proof: Rounding is monotone, and a factor below one takes the rounded difference at least to its predecessor, which is not above the exact difference (Proofs/KeyframeFloatLemmas.v).
* **C95 Bezier curves in double precision**. Model: Model/BezierFloat.v: the loop of Evaluate in IEEE binary64 with std::pow as a parameter. Proof: Relative errors of the weights (Proofs/BezierFloatLemmas.v weight), an invariant of the loop that bounds the error of the partial sums (loop), and exact sums when all weights but one are zero (one_weight).
* **C96 Culling by hulls and frusta in double precision**. Model: Model/FrustumFloat.v: SetFromMatrix, Normalize and the two tests in IEEE binary64. Proof: Relative errors of the sums of rows (exact in the sense of one rounding), of the length, of its reciprocal and of the scaled coefficients (Proofs/FrustumFloatLemmas.v plane_near), then the distance bound of C85 (form_side).
* **C97 Rays against triangles in double precision**. Model: Model/TriFloat.v: IntersectionWithTriangleBarycentric in IEEE binary64. Proof: Relative errors of the differences and of the six products of a triple product (Proofs/TriFloatLemmas.v triple_close), exactness of negation for the common edge, and the error of the rounded reciprocal of the sum (coordinates_sum); witnesses by computation.
* **C98 Generated cylinders and tori in double precision**. Model: Model/MeshFloat.v: the vertex positions of GenerateCylinder and GenerateTorus in IEEE binary64, with sine and cosine as parameters; Gs::pi is taken to be the nearest number to pi. Proof: Seventeen digits of pi by the Machin-like series of the standard library (Proofs/PiDigits.v), induction over the columns for the added angles (Proofs/MeshFloatLemmas.v angle_exact), and sine and cosine changing no faster than the angle.
* **C99 Rays against spheres in double precision**. Model: Model/SphereFloat.v: IntersectionWithSphereInterp, IntersectionWithSphere and Ray::Lerp in IEEE binary64. Proof: Errors of the three terms of the quadratic equation (Proofs/SphereFloatLemmas.v outer_near, ahead_near, disc_near); the residual of the equation at the reported parameter instead of the distance from its root (parameter_near); the rounded root of the rounded square of a number is at most the number (root_square, by the midpoint to the next number).
* **C100 Texture coordinates and cuboid faces in double precision**. Model: Model/GridFloat.v: the texture coordinates of the generators and the coordinates along the face of a cuboid in IEEE binary64. Proof: n times the rounded 1/n is at most 1 + 2^-53, which ties to 1 (Proofs/GridFloatLemmas.v tie_to_one, share_unit); rounding is monotone and fixes 0, 1 and half the size (face_near); different shares differ by more than their errors (gap, share_less).
* **C101 Uniform splines in double precision**. Model: Model/UniformSplineFloat.v: UniformSpline.h in IEEE binary64, std::floor by Flocq's Bnearbyint. Proof: Errors are counted in units of 2^-53 M (Proofs/UniformSplineFloatLemmas.v near_add, near_mul); forward elimination multiplies them by at most 2/7, back substitution by 1/2, so they stay below 120 units (near_q, near_down). The parameter times n is at most n units off, its floor and the rest are exact, and the exact spline moves at most 102 M per piece (Proofs/UniformSplineFloatEval.v).
* **C102 B-splines in double precision**. Model: Model/BSplineFloat.v: Spline.h in IEEE binary64, for 3D vectors. Proof: By induction on the order every computed basis function is non-negative, zero outside its support, and within 6 q relative roundings of the exact one plus an underflow term (Proofs/BSplineFloatLemmas.v FB_near): all factors are non-negative where the basis function below is not zero, so nothing cancels. The sum over the points is bounded because the exact basis functions add up to at most one (Proofs/BSplineFloatEval.v facc_near).
* **C103 Closest points on segments in double precision**. Model: Model/LineFloat.v: ClosestPointOnLine and DistanceToLine in IEEE binary64. Proof: The difference b - a is right up to one rounding, its length up to 7 and the unit vector up to 12 roundings (Proofs/FrustumFloatLemmas.v square_near, scaled); the projection is at most 57 units off (Proofs/LineFloatLemmas.v factor_near). Clamping does not increase that, so in each of the three cases the point is at most 110 units off; lengths of arbitrary vectors, tiny ones included, by flength_near.
* **C104 Bezier patches in double precision**. Model: Model/BezierPatchFloat.v: GetControlPoint and the double loop of Evaluate in IEEE binary64, with the addresses of Model/Bezier.v and std::pow as a parameter. Proof: The double loop is one sum of weighted numbers; its error follows from the error of each product of two weights (Proofs/BezierPatchFloatLemmas.v product_near, lacc_near). A finite sum is the same sum of rounded reals (lacc_finite), in which terms without weight do not count (racc_rows, racc_select).
* **C105 Hits of planes in double precision**. Model: Model/PlaneHitFloat.v: ClosestPointOnPlane and both IntersectionWithPlane functions in IEEE binary64, on top of Model/PlaneFloat.v and Model/ClipFloat.v. Proof: A finite quotient t satisfies |t y + x| <= u |x| + eta |y| for the computed distance x and cosine y, so the exact point at t is as close to the plane as the errors of x and t y allow, whatever y is (Proofs/PlaneHitFloatLemmas.v unit_crossing, ray_hit); interpolation adds a few roundings (lerp_near, ray_point). The sign of the quotient decides whether there is a hit, also when it overflows (div_sign). The foot x - side / (n n) n is the nearest point by Cauchy-Schwarz (foot_nearest), and each coordinate is followed through the three operations (closest_coordinate).
* **C106 Vertices of ellipsoids and cones in double precision**. Model: Model/ConeFloat.v: the vertex positions of GenerateEllipsoid and GenerateCone in IEEE binary64, with sine and cosine as parameters. Proof: Angles, sines and cosines as for C98 (Proofs/MeshFloatLemmas.v); products of two of them by double_trig, interpolation from the axis by spread_near, which is a single rounding of x * t (lerp_zero). The equation of the ellipsoid follows from sin^2 + cos^2 = 1 and the errors of the coordinates. Exact equality of the rims: n * (1 / n) rounds to 1 for n up to 48, computed by the kernel, and not for 49.
* **C107 Vertices of pipes in double precision**. Model: Model/PipeFloat.v: the vertex positions of GeneratePipe in IEEE binary64, with sine and cosine as parameters. Proof: The mantles by C98. Covers: both ends of the interpolation by trig_near, the interpolation by lerp_near, the share stays in [0, 1] (share_unit) and is within 2.1 roundings of v / c. The counterexample needs only cos 0 = 1 and is computed by the kernel.
* **C108 Half-spheres of capsules in double precision**. Model: Model/CapsuleFloat.v: the vertex positions of the half-spheres of GenerateCapsule in IEEE binary64, with sine and cosine as parameters; the mantle is fmantle of Model/MeshFloat.v. Proof: Angles by theta_near and phi_near from the digits of pi, then as for C106. The exact points of last ring and rim coincide, so both are close to each other. The counterexample bounds the cosine of the rounded quarter turn from below and shows that one half plus four times it rounds to more than one half.
* **C109 Texture coordinates of pipe covers in double precision**. Model: Model/PipeTexFloat.v: the texture coordinates of the covers of GeneratePipe in IEEE binary64, with sine and cosine as parameters. Proof: The scaled coordinate is at most (1 + 2^-53) / 2, half way between two numbers, and rounds to the even one, which is 1 / 2 (tie_to_half). Interpolation between two numbers of [0, 1] stays there (mix_unit): from below because - a is a number, from above because 1 + 2^-53 rounds to 1. Accuracy by adding up the errors; lerp_near for the interpolation.
* **C110 Barycentric coordinates in double precision**. Model: Model/BaryFloat.v: both conversions of Triangle.h and the interpolation of attributes of MeshModifier.cpp in IEEE binary64. Proof: Means by the error bound of dot products; exactness at the corners because products with 0 and 1 are exact. Areas with two equal corners are exactly zero because rounding commutes with negation. The equations of barycentric coordinates by adding up the errors of differences, products and the division.
* **C111 Distances to planes in double precision**. Model: Model/BoxPlaneFloat.v: the distances of PlaneCollision.h to points and axis-aligned boxes and the closest point in IEEE binary64. Proof: Errors of center, extent, radius and signed distance are added up (gap_near); the exact gap is a lower bound at every point of the box and attained at a corner or on the plane (gap_lower, gap_attained).
* **C112 Distances of oriented boxes to planes in double precision**. Model: Model/ObbPlaneFloat.v: DistanceToPlane of an oriented box in IEEE binary64. Proof: As for C111: errors of the dot products, the radius and the signed distance of the center are added up (obb_gap_near); the exact gap is a lower bound at every point and attained at a corner or on the plane.
* **C113 Planes through points and flipped planes in double precision**. Model: Model/BuildPlaneFloat.v: Build, UpdateDistance and Flip of Plane.h in IEEE binary64; the normalization of vectors, which is not in the repository, is a parameter. Proof: The distance stored and the dot product computed when classifying are the same number. Rounding to nearest even commutes with negation, so products, sums and differences of the flipped plane are opposite numbers (flip_mirror).
* **C114 Normals of triangles in double precision**. Model: Model/NormalFloat.v: Triangle.h Normal in IEEE binary64 (ftriangle_normal). Proof: Each component is a rounded difference of rounded products of rounded differences (cross_near); rounding to nearest even commutes with negation and the products commute (cross_swap).
* **C115 Points of rays in double precision**. Model: Model/SphereFloat.v: Ray.h Lerp in IEEE binary64 (fray_lerp). Proof: Each coordinate is a rounded sum of a rounded product and the origin; rounding is monotone, exact on representable numbers, and off by at most half a unit in the last place.

## Trusted base

* Coq 8.16.1: its kernel (with `vm_compute`), the compiler `coqc`, and the standard library.
* The libraries Flocq (binary64 arithmetic) and Coquelicot/mathcomp where imported: definitions and proved lemmas only; no
  axiom of theirs is used.
* Axioms: only those of Coq's standard library for the classical real numbers and classical logic, as printed by `Print Assumptions`
  beneath each theorem in `Props/*.v`:
  * `ClassicalDedekindReals.sig_forall_dec` (S1), `ClassicalDedekindReals.sig_not_dec` (S2),
    `FunctionalExtensionality.functional_extensionality_dep` (FE): the axioms under the type `R` of the standard library;
  * `Classical_Prop.classic` (CL): excluded middle, reached through the standard library's real analysis and through Flocq.
* That the model says what the code does.  Every definition cites the lines it models; this correspondence is checked by reading, not by a tool.

### What is assumed about code that is not in the repository

* GaussianLib (`Gs::Vector*`, `Gs::Matrix*`, `Gs::Quaternion`, `Gs::Dot/Cross/Length/Distance/Lerp/Normalize/...`) is a submodule without content.
  Vectors are `Model/Vec.v` (component-wise operations, dot and cross product, Euclidean length); rotations and affine transforms of
  planes are in `Model/Plane.v`; `Gs::AffineMatrix4` is default-constructed to the identity.  Where a theorem needs only laws (for
  example the monoid of joint transforms), they are hypotheses in the theorem's statement.
* Mesh generators: `Gs::Quaternion::EulerAngles` is taken for rotations about one axis only (right-handed half-angle formula),
  `Gs::Spherical` has the polar angle first (the conversion to Cartesian coordinates is in `Model/MeshGen.v`),
  `Gs::RotateVectorAroundAxis` is Rodrigues' formula for a unit axis, `Gs::Lerp(a, b, t)` is `a + t (b - a)`.
  Positions of vertices depend on the angles; indices and counts do not depend on any of this.
* `Gs::Real` is either `float` or `double`.  Theorems over `R` speak about exact arithmetic: they do not bound rounding errors (the theorems of C31, C78, C85, C88, C91 and C93 to C115 do, for their functions).
  Division by zero in exact arithmetic is not given a value where the code can reach it: it is a separate outcome (`Model/Ext.v`, `option`).
* The C++ standard library (`std::vector`, `std::set`, `std::map`, `std::sort`, `std::unique`, `std::thread`, `std::pow`, `std::sqrt`, trigonometric functions) is modelled by its documented meaning.

### What is modelled

* `Model/Aabb.v`: AABB.h
* `Model/Animation.v`: KeyframeSequence.cpp
* `Model/BSplineFloat.v`: Spline.h
* `Model/BaryFloat.v`: MeshModifier.cpp, Triangle.h
* `Model/Bezier.v`: BernsteinPolynomial.h, BezierCurve.h, BezierPatch.h, BezierTriangle.h
* `Model/BezierFloat.v`: BernsteinPolynomial.h, BezierCurve.h
* `Model/BezierPatchFloat.v`: BezierPatch.h
* `Model/BoxFloat.v`: AABB.h
* `Model/BoxPlaneFloat.v`: AABB.h, PlaneCollision.h
* `Model/BoxRayFloat.v`: AABBCollision.h
* `Model/BuildPlaneFloat.v`: Plane.h
* `Model/CapsuleFloat.v`: MeshGeneratorCapsule.cpp, MeshGeneratorDetails.h
* `Model/Clip.v`: MeshModifier.cpp, TriangleCollision.h
* `Model/ClipFloat.v`: MeshModifier.cpp, PlaneCollision.h, TriangleCollision.h
* `Model/Coll.v`: AABBCollision.h, Cone.h, Line.h, LineCollision.h, RayCollision.h, Sphere.h, SphereCollision.h
* `Model/ConeFloat.v`: MeshGeneratorCone.cpp, MeshGeneratorEllipsoid.cpp
* `Model/Ext.v`: shared definitions
* `Model/FrustumBox.v`: AABB.h, Frustum.h
* `Model/FrustumFloat.v`: ConvexHull.h, Frustum.h, Plane.h
* `Model/GridFloat.v`: MeshGeneratorBezierPatch.cpp, MeshGeneratorCapsule.cpp, MeshGeneratorCone.cpp, MeshGeneratorCuboid.cpp, MeshGeneratorCylinder.cpp, MeshGeneratorEllipsoid.cpp, MeshGeneratorPie.cpp, MeshGeneratorPipe.cpp
* `Model/Interp.v`: MeshModifier.cpp, MeshModifier.h, TriangleMesh.cpp, TriangleMesh.h
* `Model/Keyframe.v`: KeyframeSequence.cpp, KeyframeSequence.h
* `Model/KeyframeFloat.v`: KeyframeSequence.cpp
* `Model/LineFloat.v`: Line.h, LineCollision.h
* `Model/Mesh.v`: TriangleMesh.cpp, TriangleMesh.h
* `Model/MeshFloat.v`: MeshGeneratorCylinder.cpp, MeshGeneratorDetails.h, MeshGeneratorTorus.cpp
* `Model/MeshGen.v`: MeshGenerator.h, MeshGeneratorBezierPatch.cpp, MeshGeneratorCapsule.cpp, MeshGeneratorCone.cpp, MeshGeneratorCuboid.cpp, MeshGeneratorCurve.cpp, MeshGeneratorCylinder.cpp, MeshGeneratorDetails.cpp, MeshGeneratorEllipsoid.cpp, MeshGeneratorPie.cpp, MeshGeneratorPipe.cpp, MeshGeneratorSpiral.cpp, MeshGeneratorTorus.cpp, MeshGeneratorTorusKnot.cpp, TriangleMesh.cpp
* `Model/NormalFloat.v`: Triangle.h
* `Model/ObbPlaneFloat.v`: OBB.h, PlaneCollision.h
* `Model/PipeFloat.v`: MeshGeneratorPipe.cpp
* `Model/PipeTexFloat.v`: MeshGeneratorPipe.cpp
* `Model/Plane.v`: AABB.h, Cone.h, ConeCollision.h, ConvexHull.h, Frustum.h, Line.h, OBB.h, Plane.h, PlaneCollision.h, Ray.h, Sphere.h
* `Model/PlaneFloat.v`: AABB.h, Plane.h, PlaneCollision.h
* `Model/PlaneHitFloat.v`: Line.h, PlaneCollision.h
* `Model/Playback.v`: Playback.cpp, Playback.h
* `Model/Scalar.v`: Config.h
* `Model/Shapes.v`: AABB.h, LineCollision.h, OBB.h, Triangle.h
* `Model/Skeleton.v`: Skeleton.cpp, Skeleton.h, SkeletonJoint.cpp, SkeletonJoint.h
* `Model/SphereFloat.v`: Ray.h, Sphere.h, SphereCollision.h
* `Model/Spline.v`: Spline.h
* `Model/Tangent.v`: TangentSpace.h
* `Model/Transforms.v`: Projection.h, Transform2.h, Transform3.h
* `Model/Tri.v`: Plane.h, Triangle.h, TriangleCollision.h
* `Model/TriFloat.v`: Ray.h, Triangle.h, TriangleCollision.h
* `Model/UniformSpline.v`: UniformSpline.h
* `Model/UniformSplineFloat.v`: UniformSpline.h
* `Model/Vec.v`: shared definitions
* `Model/VecAabb.v`: VectorizedAABB.h
* `Model/VecAabbFloat.v`: AABB.h, VectorizedAABB.h

### What is not modelled

* Rounding, except in the theorems about floating point: C05, C08 and C88 (playback), C29 (orders), C31 (vectorized boxes, binary32),
  C39 (the index of a uniform spline), C78 (centers of boxes), C85 (planes), C91 (rays against boxes), C93 (cutting triangles), C94 (keyframes), C95 (Bezier curves), C96 (hulls and frusta), C97 (rays against triangles), C98 (generated cylinders and tori), C99 (rays against spheres), C100 (texture coordinates and cuboid faces), C101 (uniform splines), C102 (B-splines), C103 (closest points on segments), C104 (Bezier patches), C105 (hits of planes), C106 (ellipsoids and cones), C107 (pipes), C108 (capsules), C109 (textures of pipes), C110 (barycentric coordinates), C111 and C112 (distances to planes), C113 (planes through points), C114 (normals of triangles) and C115 (points of rays).
* Constructors that only store their arguments or leave members uninitialized (`Gs::UninitializeTag`), getters, `Cast`, indexing of
  triangles (`operator []`), copy and move operations, and type aliases.
* `Transform3T(matrix)` (Transform3.h 45-51), which only calls functions of GaussianLib.
* `BezierTriangle::Evaluate` (BezierTriangle.h 43-50), which is a stub that returns an unset value, and its `operator ()`, which calls a
  function of two arguments that does not exist; `RleationToLine` (LineCollision.h 180-208), which is switched off by `#if 0`;
  the area of a 3D triangle (Triangle.h), which returns a vector as a scalar and cannot be instantiated.
* Memory: objects are values; ownership is modelled only where a property is about it (joints, Playback listeners, buffers of vertices).
* Allocation failure and exceptions other than those the code throws itself.
* The programs in /repo/test and the scripts that build them.

### Axioms used by each theorem

S1, S2, FE and CL as above.  A theorem that is not listed here prints `Closed under the global context`.

* `Props/AabbProps.v`
  * closed: `C29_insert_is_least_box`, `C29_insert_order_irrelevant`, `C29_nan_ignored`, `C29_infinity_not_tight_refuted`, `C30_predicates_exact`, `C30_repair`, `C30_inside_of_invalid_refuted`, `C31_lanes_agree`, `C32_edges_2d`, `C32_edges_3d`
  * S1, S2, FE, CL: `C29_scalar_instances`, `C31_float_lanes`, `C31_centers_and_sizes`, `C31_sizes_refuted`, `C31_repair_refuted`, `C31_contains_points_refuted`, `C31_nan_insert_refuted`
* `Props/AnimationProps.v`
  * S1, FE: `C81_matrix_of_frames`, `C81_sampling_safe`, `C81_sampling_after_clear_refuted`, `C81_late_start_refuted`, `C82_oneshot_pose`, `C82_oneshot_end_pose`, `C82_loop_pose`, `C82_loop_backward_pose`, `C82_pingpong_pose`
* `Props/BSplineFloatProps.v`
  * S1, S2, FE, CL: `C102_near`, `C102_local`, `C102_octant`, `C102_outside`, `C102_close_knots_refuted`
* `Props/BaryFloatProps.v`
  * S1, S2, FE, CL: `C110_cartesian`, `C110_corners`, `C110_between`, `C110_between_refuted`, `C110_barycentric`, `C110_sum`, `C110_third`, `C110_first`, `C110_second`, `C110_first_refuted`
* `Props/BezierFloatProps.v`
  * S1, S2, FE, CL: `C95_end_points`, `C95_accuracy`, `C95_in_box`, `C95_hull_refuted`
* `Props/BezierMotionProps.v`
  * S1, FE: `C36_linear_precision`, `C37_linear_precision`
  * S1, S2, FE, CL: `C76_velocity`, `C76_end_velocities`
* `Props/BezierPatchFloatProps.v`
  * S1, S2, FE, CL: `C104_accuracy`, `C104_in_box`, `C104_sides`, `C104_no_gap`, `C104_corners`, `C104_hull_refuted`
* `Props/BezierProps.v`
  * closed: `C35_exact_degrees`
  * S1: `C35_division_by_zero_refuted`, `C36_many_points_refuted`, `C37_reads_back`, `C37_order_65535_refuted`, `C38_addresses_partial`, `C38_small_orders`, `C38_corner_lost_refuted`
  * S1, FE: `C35_values`, `C35_partition_of_unity`, `C35_degree_21_refuted`, `C36_de_casteljau`, `C36_end_points`, `C36_convex_hull`, `C36_affine_invariant`, `C36_reversal`, `C36_single_point_refuted`, `C37_curve_of_curves`, `C37_corners`, `C37_sides`, `C37_convex_hull`, `C37_order_zero_refuted`
* `Props/BoxPlaneFloatProps.v`
  * S1, S2, FE, CL: `C111_lower`, `C111_attained`, `C111_misses`, `C111_meets`, `C111_point`, `C111_closest`, `C111_unsigned_refuted`
* `Props/BoxRayFloatProps.v`
  * S1, S2, FE, CL: `C91_first_hit`, `C91_start_inside`, `C91_test`, `C91_nan_ignored`, `C91_unbounded`, `C91_corner_refuted`, `C91_behind_refuted`
* `Props/BoxRayProps.v`
  * S1, FE: `C33_first_hit_partial`, `C33_all_directions`, `C33_ray_overloads`, `C33_small_component_refuted`, `C33_empty_box_refuted`, `C34_point_overload_partial`
  * S1, S2, FE: `C34_overloads_agree_partial`, `C34_overloads_refuted`
* `Props/BuildPlaneFloatProps.v`
  * S1, S2, FE, CL: `C113_member`, `C113_first`, `C113_second_refuted`, `C113_flip`
* `Props/CapsuleFloatProps.v`
  * S1, S2, FE, CL: `C108_caps`, `C108_closed`, `C108_rims`, `C108_rims_refuted`
* `Props/ClipAreaProps.v`
  * S1, S2, FE: `C87_parts_add_up_partial`, `C87_never_less`, `C87_overlap_refuted`
* `Props/ClipFloatProps.v`
  * S1, S2, FE, CL: `C93_cut`, `C93_crack_refuted`, `C93_lost_refuted`
* `Props/ClipProps.v`
  * S1, FE: `C27_clip_triangle_partial`, `C27_count_refuted`, `C28_clip_mesh`, `C28_nothing_lost`, `C28_in_place_refuted`
* `Props/ConeFloatProps.v`
  * S1, S2, FE, CL: `C106_ellipsoid`, `C106_surface`, `C106_closed`, `C106_cone`, `C106_cone_cover`, `C106_cone_rims`, `C106_cone_rims_refuted`
* `Props/CutProps.v`
  * S1, FE: `C90_tolerance_refuted`
  * S1, FE, CL: `C90_open_only_along_plane_partial`, `C90_borders_partial`, `C90_volumes_partial`
  * S1, S2, FE, CL: `C90_generated_solids`
* `Props/ExtentProps.v`
  * S1, S2, FE: `C89_division_points`, `C89_within_shape`, `C89_bounding_box`, `C89_new_vertices`, `C89_extent`, `C89_exact`
  * S1, S2, FE, CL: `C89_close`
* `Props/FloatProps.v`
  * S1, S2, FE, CL: `C85_distance`, `C85_point_relation`, `C85_front`, `C85_box_relation`, `C85_agree`, `C85_axis_exact`, `C85_on_plane_refuted`, `C78_double_center`, `C78_double_center_refuted`
* `Props/FrustumFloatProps.v`
  * S1, S2, FE, CL: `C96_point`, `C96_sphere`, `C96_unit`, `C96_hull`, `C96_exact_refuted`
* `Props/FrustumProps.v`
  * S1, FE: `C86_corners_partial`, `C86_corner_lost_refuted`, `C86_rectangle_refuted`, `C86_box_of_reported`, `C86_box_partial`, `C86_box_refuted`
* `Props/GridFloatProps.v`
  * S1, S2, FE, CL: `C100_mantle`, `C100_order`, `C100_grid`, `C100_cover`, `C100_face`, `C100_edges`, `C100_edges_refuted`
* `Props/HullProps.v`
  * S1, FE: `C57_sphere_center_inside`, `C57_frustum_corrected`, `C57_frustum_corners_partial`
  * S1, S2, FE: `C57_hull_membership`, `C57_sphere_outside`, `C57_sphere_inside_refuted`, `C57_frustum_mirrored`, `C57_frustum_refuted`, `C59_cone_in_front`, `C59_closest_point_partial`, `C59_closest_point_refuted`
* `Props/KeyframeFloatProps.v`
  * S1, S2, FE, CL: `C94_interpolator`, `C94_steady`, `C94_sample`, `C94_end_refuted`
* `Props/KeyframeProps.v`
  * closed: `C09_sort_determined`, `C09_duplicate_frames_refuted`
  * S1: `C11_sampling_exact_at_ends`
  * S1, FE: `C09_tracks_interpolate_from_zero`, `C09_track_value_unique`, `C09_listing_order_irrelevant`, `C09_keys_are_not_offset_partial`, `C09_tracks_interpolate_refuted`, `C10_common_frame_range`, `C10_greatest_frame_refuted`, `C11_sampling_clamped_and_safe`, `C11_sampling_after_clear_refuted`, `C12_rebuild_independent_nonempty`, `C12_clear_then_build`, `C12_rebuild_independent_refuted`
* `Props/LineFloatProps.v`
  * S1, S2, FE, CL: `C103_near`, `C103_no_nearer`, `C103_distance`, `C103_ends`, `C103_beyond_refuted`, `C103_short_refuted`
* `Props/LineProps.v`
  * S1, S2, FE: `C45_closest_point_partial`, `C45_single_point_refuted`, `C45_closest_segment_partial`, `C45_ends_on_segments`, `C45_short_segment_refuted`, `C45_rays_partial`, `C45_rays_refuted`
* `Props/MeshFloatProps.v`
  * S1, S2, FE, CL: `C98_cylinder`, `C98_seam`, `C98_rims`, `C98_torus`, `C98_seam_refuted`, `C98_rims_refuted`
* `Props/MeshGenProps.v`
  * S1, S2, FE: `C51_only_append`, `C51_returns`, `C51_returns_refuted`, `C52_counts`, `C53_oriented_partial`, `C53_oriented_refuted`, `C53_watertight_partial`, `C54_alternate_grid`, `C55_on_surface`, `C55_torus_equation`, `C55_unit_normals_partial`, `C55_cone_normals`, `C55_cone_normals_refuted`, `C56_indices_partial`, `C56_ellipsoid_wraps`, `C56_indices_refuted`
* `Props/MeshProps.v`
  * closed: `C19_edges_exact`, `C19_sort_determined`, `C21_neighbors_are_the_ball`, `C21_edge_bond_is_common_side`, `C21_degenerate_edge_bond_refuted`, `C22_find_triangles_exact`, `C23_append_preserves`, `C23_append_associative`, `C23_add_preserves`, `C23_self_append_refuted`, `C24_bounding_box_tight`, `C24_faces_touch`, `C25_multi_threaded_equals_sequential`, `C25_executions_end`
  * S1: `C26_interpolation_writes_described_attributes`
  * S1, FE: `C26_barycentric`, `C26_corners_and_linearity`
  * S1, S2, FE: `C20_silhouette_characterised`, `C20_zero_tolerance`
  * S1, S2, FE, CL: `C20_kept_edges_are_bent`, `C20_tolerance_angle_refuted`
* `Props/NormalFloatProps.v`
  * S1, S2, FE, CL: `C114_near`, `C114_swap`, `C114_degenerate`, `C114_rotate_refuted`
* `Props/NormalProps.v`
  * S1, S2, FE: `C75_normals`, `C75_flat_normals`, `C75_flat_front`, `C77_winds`, `C77_on_torus`, `C77_knot_iff_coprime`
  * S1, S2, FE, CL: `C74_perpendicular_partial`, `C74_cone_refuted`, `C74_spiral_refuted`, `C74_ellipsoid_refuted`, `C74_cylinder_refuted`
* `Props/ObbPlaneFloatProps.v`
  * S1, S2, FE, CL: `C112_lower`, `C112_attained`, `C112_misses`, `C112_meets`
* `Props/PipeFloatProps.v`
  * S1, S2, FE, CL: `C107_mantles`, `C107_covers`, `C107_inner_rims`, `C107_outer_rims`, `C107_outer_rims_refuted`
* `Props/PipeTexFloatProps.v`
  * S1, S2, FE, CL: `C109_image`, `C109_near`, `C109_image_refuted`
* `Props/PlaneHitFloatProps.v`
  * S1, S2, FE, CL: `C105_apart`, `C105_across`, `C105_segment_point`, `C105_towards`, `C105_away`, `C105_ray_point`, `C105_away_refuted`, `C105_closest`
* `Props/PlaneProps.v`
  * S1, FE: `C41_point_on_plane`, `C41_flip_negates`, `C41_member_point_refuted`, `C41_four_scalars_refuted`, `C41_four_scalars_mirrored`, `C42_closest_point_refuted`, `C42_point_relation`, `C42_box_relation`, `C43_two_planes`, `C43_three_planes_partial`, `C43_three_planes_refuted`, `C43_no_common_point_refuted`, `C44_ray_hits`, `C44_segment_hits`, `C44_parallel_ray_refuted`, `C63_transform_plane_partial`, `C63_alternate_equation_refuted`, `C63_scaling_refuted`, `C64_unsigned_refuted`
  * S1, S2, FE: `C41_three_points_on_plane`, `C41_normalize_keeps_plane`, `C41_member_point`, `C42_distance_and_closest_point`, `C64_box_distance`, `C64_oriented_box_distance`
* `Props/PlaybackFloatProps.v`
  * closed: `C88_loop_any_arithmetic`, `C88_pingpong_any_arithmetic`, `C88_oneshot_any_arithmetic`, `C88_backward_any_arithmetic`
  * S1, S2, FE, CL: `C88_loop_drift`, `C88_pingpong_drift`, `C88_oneshot_drift`, `C88_same_frame_refuted`, `C05_interpolator_range_float`, `C08_update_returns_float`
* `Props/PlaybackProps.v`
  * closed: `C01_notifications_describe_state`, `C05_update_idle`, `C06_pause_transparent`
  * S1, FE: `C02_oneshot_visits_range`, `C02_silent_after_stop_refuted`, `C03_loop_cycles`, `C04_pingpong_bounces`, `C04_pingpong_single_frame_refuted`, `C05_interpolator_range`, `C05_update_additive`, `C07_loop_backward_mirrors`, `C07_oneshot_backward_refuted`, `C08_update_terminates_exact`, `C61_list_loop_cycles`, `C61_stop_rewinds_list`, `C62_next_frame_in_range_refuted`, `C62_frames_in_range`
  * S1, S2, FE, CL: `C08_update_terminates_refuted`
* `Props/RayFloatProps.v`
  * S1, S2, FE, CL: `C115_near`, `C115_origin`, `C115_forward`, `C115_moves_refuted`
* `Props/ReplayProps.v`
  * closed: `C92_play_again`, `C92_play_again_any`
  * S1, S2, FE, CL: `C92_pingpong_refuted`
* `Props/ShapeProps.v`
  * closed: `C78_integer_center_partial`, `C78_integer_center_refuted`, `C78_integer_size`
  * S1, FE: `C78_center_size`, `C79_from_corners`, `C80_area_adds_up`, `C80_area_sign_refuted`
  * S1, S2, FE: `C79_from_axes`, `C79_flat_box_refuted`, `C79_update_refuted`, `C80_base_height`, `C45_distance_partial`
  * S1, S2, FE, CL: `C80_angle_sum`, `C80_angle_of_corner`, `C80_area_and_angle`
* `Props/SkeletonProps.v`
  * closed: `C13_enumeration_is_preorder`, `C14_buffers_within_bounds`, `C15_matrices_are_path_products`, `C15_local_matrices`, `C16_bind_pose_neutral`, `C16_pose_space_roundtrip`, `C17_remove_returns_joint_refuted`, `C17_remove_unknown`, `C17_removed_joint_reusable_refuted`, `C18_copy_duplicates`, `C18_add_sets_parent`
* `Props/SolidProps.v`
  * S1, S2, FE: `C68_closed_partial`, `C68_spiral`, `C68_spiral_refuted`, `C69_front_is_normal_partial`, `C69_front_is_outside`, `C69_front_is_normal_refuted`
* `Props/SphereFloatProps.v`
  * S1, S2, FE, CL: `C99_reported`, `C99_sure_hit`, `C99_on_sphere`, `C99_point`, `C99_graze_refuted`
* `Props/SphereProps.v`
  * S1, S2, FE: `C46_first_hit_partial`, `C46_hit_iff`, `C46_inside_refuted`, `C46_direction_refuted`, `C58_sphere_area`
  * S1, S2, FE, CL: `C58_sphere_volume`, `C58_sphere_same`, `C58_cone_angle`, `C58_ranges_refuted`, `C65_sphere_volume`, `C65_cone_volume`, `C65_sphere_area`
* `Props/SpiralProps.v`
  * S1, S2, FE: `C69_spiral`, `C69_spiral_third_refuted`, `C69_tube_sides`, `C69_tube_outside`, `C69_tube_flat_refuted`
* `Props/SplineProps.v`
  * closed: `C40_history`, `C40_order_first_refuted`
  * S1, FE: `C40_always_defined`, `C40_convex_combination`, `C40_convex_hull`, `C40_local`, `C40_order_one_is_polyline`, `C40_ends_refuted`, `C40_last_spans_refuted`
* `Props/SplineSmoothProps.v`
  * S1, FE: `C84_order_one_kink_refuted`
  * S1, S2, FE, CL: `C84_smooth`, `C84_rising`
* `Props/TangentProps.v`
  * S1, S2, FE: `C60_directions`, `C60_unit_and_perpendicular`, `C60_handedness_refuted`, `C60_epsilon_refuted`, `C60_skew_refuted`
* `Props/TextureProps.v`
  * S1, S2, FE: `C70_in_image`, `C70_torus`, `C70_spiral`, `C70_torus_refuted`, `C71_not_mirrored`, `C71_pipe`, `C71_curve_refuted`, `C72_parameters`, `C73_rings_partial`, `C73_seam`, `C73_knots_closed`, `C73_knot_is_tube`, `C73_vertical_refuted`, `C73_open_refuted`
* `Props/TransformProps.v`
  * S1, FE: `C49_transform3_never_stale`, `C50_turn_is_rigid`, `C50_turn_order_refuted`
  * S1, S2, FE: `C49_projection_never_stale`, `C49_default_fov_refuted`, `C49_transform2_never_stale`, `C50_turn_rotates`, `C50_rotate_meaning`, `C50_turn_plane_refuted`, `C50_turn_plane_general_refuted`
* `Props/TriFloatProps.v`
  * S1, S2, FE, CL: `C97_sure_hit`, `C97_reported`, `C97_coordinates`, `C97_accuracy`, `C97_no_leak`, `C97_leak_refuted`, `C97_nan_refuted`
* `Props/TriProps.v`
  * S1, FE: `C48_round_trip`, `C48_round_trip_point`, `C48_degenerate`, `C48_round_trip_2d`, `C48_round_trip_point_2d`, `C48_triangle`, `C48_triangle_2d`, `C47_inside`, `C47_barycentric`, `C47_precomputed`, `C47_shared_edge_refuted`, `C47_inside_refuted`
  * S1, S2, FE: `C47_closest_point`, `C47_ray`, `C47_segment`, `C47_from_behind_refuted`, `C66_sound`, `C66_complete`, `C66_coplanar_refuted`, `C66_whole_segment_refuted`, `C67_closest_segment`
* `Props/UniformSplineFloatProps.v`
  * S1, S2, FE, CL: `C101_near`, `C101_through`, `C101_joints`, `C101_first`, `C101_last`, `C101_last_refuted`, `C101_nan_refuted`
* `Props/UniformSplineProps.v`
  * closed: `C39_single_point_refuted`
  * S1, FE: `C39_interpolates`, `C39_clamped`, `C39_continuously_differentiable`, `C39_natural_cubic`, `C39_no_expansion_is_polyline`, `C39_linear_refuted`
  * S1, S2, FE, CL: `C39_index_in_range`
* `Props/VolumeProps.v`
  * S1, FE: `C83_origin_irrelevant`
  * S1, S2, FE: `C83_volume_partial`, `C83_spiral_partial`
  * S1, S2, FE, CL: `C83_volume_converges_partial`, `C83_spiral_converges_partial`
