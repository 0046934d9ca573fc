# Formal model of MathGeoLib in Rocq (Coq 8.16.1)

## What is modelled

The model follows the scalar C++ path of the library: no `MATH_SSE`/`MATH_NEON`/`MATH_AUTOMATIC_SSE`, row-major
matrices, `vec = float3`, `vec2d = float2`, `MATH_SILENT_ASSUME` (the default release configuration: `assume(...)` expands to nothing and
`assert` is compiled out).  A condition that the C++ only states with `assume`/`assert` is therefore **not** enforced by
the model; when a theorem needs it, it appears as an explicit hypothesis.

Every definition in a `*Model.v` file carries a comment citing the file and lines it models, and says so when it simplifies.
The model files contain no proofs; `*Spec.v` files state what the claims mean (point sets, distances, hulls, smallest discs, ...) without
using the model's functions; `*Proofs.v` files hold lemmas; `*Props*.v` files hold the theorems named after the properties, a
`Print Assumptions` after them and an `Example ..._witness` showing that the hypotheses can be met.  Theorems ending in `_refuted` are
proofs that a documented or expected claim is false of the code; `_actual` theorems say what the code does instead.

| model file | code | not modelled from that code |
|---|---|---|
| `ScalarModel`, `IntFuncModel` | `MathFunc.h/.cpp`, `MathOps.cpp`, `Interpolate.h`, `Polynomial.cpp` | string and stream helpers (`Serialize*`/`Deserialize*`, `FloatToString`), SSE sqrt/recip approximations, the trigonometric lookup tables except their index computation |
| `BitModel` | `BitOps.h/.cpp`, power-of-two functions of `MathFunc.cpp` | compile-time bit-printing macros |
| `MiniFloatModel`, `F32` | `MiniFloat.h/.cpp`, `Reinterpret.h`, float classification | |
| `LcgModel` | `Algorithm/Random/LCG.h/.cpp` | seeding from the clock |
| `Vec3Model` | `float3.h/.cpp` | strings, swizzles, SSE batch functions |
| `Vec2Model`, `HullModel`, `MinRectModel` | `float2.h/.cpp/.inl`, `AABB2D.h` | strings, swizzles |
| `Vec4Model` | `float4.cpp:283-1463` | swizzles, strings, random directions, SIMD branches, constructors and `Set` (field copies) |
| `MatModel`, `GMatModel` | `float3x3`, `float3x4`, `float4x4`, `TransformOps.cpp`, `Matrix.inl` | strings, random matrices, `float4` rows beyond what the matrices need |
| `RotModel` | `Quat.h/.cpp`, rotation part of `Matrix.inl`, trigonometric members of `float2`/`float3` | `RandomRotation`, strings |
| `AabbModel` | `AABB.h/.cpp` | SSE ray test, vertex-buffer writers, GJK overloads (see `GjkModel`) |
| `LineModel` | `Line.cpp`, `Ray.cpp`, `LineSegment.cpp` | `double` overloads, forwarding calls |
| `PlaneModel` | `Plane.cpp` | `Project(Line/Ray)` (reads uninitialised memory), forwarding calls |
| `SphereModel` | `Sphere.h/.cpp` | normals/UVs of `Triangulate` |
| `TriangleModel` | `Triangle.h/.cpp`, two helpers of `LineSegment2D.cpp` | SSE variant of `Intersects(AABB)` |
| `CircleModel`, `CapsuleModel` | `Circle.cpp`, `Capsule.cpp` (`Circle::IntersectsFaces` in `ObbModel`) | strings |
| `ObbModel`, `PlanarObbModel` | `OBB.h/.cpp` | `OptimalEnclosingOBB` of solid hulls (its branch for flat hulls is modelled) and the brute-force searches, vertex-buffer writers |
| `FrustumModel` | `Frustum.h/.cpp`, `PBVolume.h` | perspective `ClosestPoint`, intersections through polyhedra, `PBVolume::ToPolyhedron` |
| `SatModel`, `GjkModel`, `PlaneTestModel` | `SAT.h`, `SAT.cpp`, `GJK.h/.cpp`, `GJK2D.h/.cpp` | `MATH_ASSERT_CORRECTNESS` checks |
| `PolygonModel`, `PolyMeetModel`, `PolyBoxModel`, `PolyPolyModel` | `Polygon.cpp` | intersection with Frustum (the template it shares with AABB and OBB is modelled), Triangle, Polyhedron, and with a Polygon in a parallel plane; strings |
| `TriMeshModel` | `TriangleMesh.cpp:170-436`, `TriangleMesh_IntersectRay_SSE.inl`, `TriangleMesh_IntersectRay_AVX.inl` | `DetectSIMDCapability`, copies, `SetConvex`'s triangulation call; the `rcp` instruction is a parameter; alignment of the stores |
| `PolyTopoModel`, `PolyhedronModel` | `Polyhedron.cpp` | `ConvexHull` (the incremental algorithm with conflict lists), `MergeAdjacentPlanarFaces`, strings, concave `Contains` and distance queries |
| `Flat2Model` | `LineSegment2D.cpp`, `Triangle2D.cpp`, `Circle2D.cpp` | code under `#if 0` |
| `RandomModel` | random directions, rotations and points of `float2`, `float3`, `Quat`, `AABB`, `OBB`, `Capsule`, `Polygon`, `Frustum` | `RandomGeneral`, the `float4` wrappers |
| `ClockModel` | tick arithmetic of `Time/Clock.h` | reading the counters and the calendar, float conversions, ticks that are doubles |
| `ToHedModel` | `ToPolyhedron` of `AABB`, `OBB`, `Frustum`, `Polygon`, `Triangle`; `Frustum::Volume` | the `assume`s that end `AABB::ToPolyhedron` (no effect in this build) |
| `ShapeSetModel` | `AABB::Contains`/`Enclose`, `Sphere::Enclose`, `Plane::SignedDistance`/`Intersects`/`Contains` and `Contains(Frustum)` for polygons, frustums and polyhedra | the early-outs and corner loops are as in the code; nothing left out |
| `KdTreeModel` | `KDTree.h/.inl` | memory addresses, `new`/`delete`, SSE traversal |
| `QuadTreeModel` | `QuadTree.h/.inl` | debug dumps |

Not modelled at all: SIMD code paths, `MATH_*_INTEROP`, graphics-engine and JSON/JS bindings, `Time/Clock.cpp`, `grisu3.c`,
`OBB2D` (declared only), file I/O, `std::string` formatting, threads, allocation failure.

### Scalars

Geometry code is written once in Gallina, polymorphic in a record of scalar operations (`Num`, file `Num.v`): constants,
`+ - * /`, negation, absolute value, square root, `<`, `<=`, `==`, literals.  It is instantiated with

1. **R** – Coq's real numbers: the idealised semantics, in which geometric claims are stated and proved;
2. **binary32** – IEEE-754 single precision, round to nearest even, given by Coq's `SpecFloat` / Flocq's `BinarySingleNaN`
   (prec 24, emax 128): executable, used for exact statements about the real floating-point code (comparison-only
   algorithms, random numbers, refutations);
3. **extended reals** `xr` (`XNum.v`) – reals with two infinities and NaN, exact arithmetic: for code that relies on `FLOAT_INF`
   (negative-infinity boxes, slab tests with division by zero).

`sin`, `cos`, `atan2`, ... are a separate class (`NumTrig`) with an instance over R only.  A theorem about a comparison-only algorithm is
proved once from an ordered-scalar interface and then instantiated with R and binary32.  A theorem proved only over R says nothing about
rounding; the MANIFEST notes say which instance each theorem is about.

Bit-level code (`MiniFloat`, `BitOps`, `LCG`, float classification) is modelled on `Z` with explicit wrap-around.

### State, loops and undefined behaviour

Member functions that change `*this` are functions returning the new object.  Loops whose termination is not structural take fuel; the
theorems then either prove a sufficient bound or quantify over all runs that end.  Pseudo-random draws are arguments: a theorem about a random
point holds for every value the generator can return.  Signed overflow, shifts by the word size, out-of-range float-to-int conversions, reads of
uninitialised variables, null or out-of-bounds accesses are distinct outcomes (`None`/`Fault`) or explicit preconditions.

## Trusted base

- Coq 8.16.1's kernel (and its `vm_compute` machine, used for finite computations).
- The axioms `Print Assumptions` lists, all of them from the standard library; the last section of this file gives them for each theorem.
- The faithfulness of the hand translation from C++ to Gallina.
- That the C++ compiler evaluates `float` expressions in binary32 without excess precision or contraction (only for the
  binary32 theorems).

No axiom, parameter, functor, module type or kernel switch is added; no proof is admitted.  Property C56 is partial: the kd-tree ray query is safe for
every binary32 ray, but complete only in exact arithmetic with infinities and for rays avoiding the two situations in which it is refuted
(axis-parallel rays, and an exit close to a split plane); the theorem's suffix is `_partial`.

## Testing the theorems

`seeded/LOG.jsonl` records, for each wrong program tried, the definition edited, the edit, the theorems that failed to build, and where none
failed what was tightened.  The wrong programs are single edits of the kind real bugs have (swapped operands, wrong component, strict for
non-strict comparison, dropped term, wrong constant, off-by-one bounds), applied to every model file in a scratch copy.

## Argument per property

- **C01 Random draws stay in range** — Z model of Seed/Int with explicit mod 2^64; invariant by induction on the number of draws.
- **C02 Default generator has full period** — Z model; the stream is seed*69621^n mod (2^31-1); primality (Pocklington-style/trial witness checked by the kernel) and multiplicative order from the factorisation of 2^31-2. Refutation for the two bad seeds.
- **C03 Random floats stay in their documented interval** — binary32 (Flocq/SpecFloat) model of the bit trick; the reinterpreted word is decoded and the subtraction shown exact.
- **C04 Random integers from a range stay in the range** — binary32 model of Float()*(b-a+1), truncation, clamp; monotonicity of rounding bounds the product.
- **C05 Fast random stream never sticks at zero** — Z model mod 2^32; parity/inequality argument; refutation by a concrete state.
- **C06 Half-float decode/encode round trip** — bit-level Z model; finite sweep over 2^16 patterns lifted by forallb_forall (domain genuinely finite) or bit lemmas.
- **C07 Half-float decode has the IEEE value** — bit-level model + IEEE value functions (spec) for 16 and 32 bit patterns.
- **C08 Encoding to half truncates toward zero** — bit-level model + IEEE value function; arithmetic proof for all words.
- **C09 Mini-float round trip** — bit-level model generic in the layout; arithmetic proof.
- **C10 Power-of-two predicates and rounding** — Z model with explicit 32/64-bit wrap; bit lemmas (Z.testbit).
- **C11 Bit utilities** — Z/N model, bitwise proofs.
- **C12 Binomial coefficients** — Z model; induction; spec = factorial quotient / Pascal recursion.
- **C13 Integer powers** — generic-scalar model over R; induction on the exponent's binary expansion.
- **C14 Float classification** — bit-level Z model; arithmetic proof over all 2^32 patterns.
- **C15 Fixed-point arithmetic** — Z model of FixedPoint<T,F>; overflow is a precondition (signed overflow is UB).
- **C16 Clamp, Min, Max laws** — generic-scalar model; laws proved from a small ordered-scalar interface that R and binary32 both satisfy.
- **C17 Periodic helpers** — real model with fmod as truncated remainder; binary32 refutations by vm_compute.
- **C18 Quadratic solver** — real model.
- **C19 Enclosing boxes** — generic-scalar model of AABB; order laws only, hence valid in binary32; spheres etc. over R.
- **C20 Box overlap tests agree with geometry** — generic-scalar model; order laws; interior statement over R.
- **C21 Closest point on a box** — R model; componentwise clamp argument.
- **C22 Box/sphere test** — R model, from C21.
- **C23 Line, ray and segment against a box** — R model of the slab method with early-outs.
- **C24 Support functions of a box** — R model.
- **C25 Transforming a box** — R model; centre/extent argument; refutation for the quaternion overload.
- **C26 Vector length operations** — R model (sqrt).
- **C27 Perpendicular bases** — R model.
- **C28 Reflection, refraction and projection of vectors** — R model.
- **C29 Orthonormalisation** — R model.
- **C30 Matrix inverse** — R model of the Gauss-Jordan loop and of the closed forms.
- **C31 Linear solver** — R model of the pivoting solver.
- **C32 Matrix algebra** — R model, ring.
- **C33 Triangular factorisations** — R model; refutation for Cholesky.
- **C34 Affine inverses** — R model; refutations for the scaled variants.
- **C35 Quaternion rotations** — R model.
- **C36 Quaternion from matrix** — R model, four branches.
- **C37 Rotation between directions** — R model; refutation for the quaternion version.
- **C38 Euler angles** — R model with sin/cos.
- **C39 Plane construction, distance and projection** — R model.
- **C40 Moving planes** — R model; refutation of Translate.
- **C41 Plane against line, segment, triangle, sphere and box** — R model.
- **C42 Clipping** — R model; refutation of the boundary case.
- **C43 Closest points between lines, rays and segments** — R model; convexity argument on the quadratic distance form.
- **C44 Sphere queries** — R model; convexity.
- **C45 Growing a sphere** — R model; induction on histories; refutations.
- **C46 Barycentric coordinates** — R model.
- **C47 Closest point on a triangle** — R model; Voronoi-region case analysis by variational inequality.
- **C48 Line/triangle intersection** — R model.
- **C49 Triangle/box separating axes** — R model; each early-out exhibits a separating axis.
- **C50 Capsule queries** — R model using C43.
- **C51 Oriented boxes** — R model.
- **C52 OBB/OBB separating axes** — R model; each early-out exhibits a separating axis.
- **C53 Kd-tree keeps every object** — functional model of the node/bucket arrays; induction over SplitLeaf; comparison-only so valid for any scalar incl. binary32.
- **C54 Kd-tree box query is complete** — same model; invariant relating node boxes to leaf contents.
- **C55 Kd-tree shape bounds** — same model; depth and stack-height invariants.
- **C56 Kd-tree ray query** — same model; partial/refutation expected.
- **C57 Quadtree never loses or duplicates objects** — functional model of the node array; invariant over all operation histories; generic scalar.
- **C58 Quadtree box query is complete** — same model over R (and binary32 where possible).
- **C59 Quadtree colliding pairs are complete** — same model.
- **C60 Quadtree node accounting** — same model.
- **C61 Mini-float values** — Z model generic in the layout; refutations for infinities and negative denormals.
- **C62 Interpolation, C64 Easing curves** — R model; monotonicity and range.
- **C63 ULP comparison** — bit patterns on Z; refutation for signed overflow.
- **C65 Translate and scale operators, C66 Projection matrices, C67 Decomposition, C68 Mirror/LookAt** — R matrices.
- **C69 float3 reductions, C70 float2, C71 AABB2D** — generic scalar where only comparisons matter, otherwise R.
- **C72 Euler extraction, C73 Angles, C74 Interpolating orientations** — R with real trigonometry.
- **C75 Lines, C76 Circles** — R; point sets.
- **C78 Smallest enclosing spheres, C79 Triangulation** — R; explicit optimality argument over all spheres; induction over subdivision.
- **C80, C81 Triangles; C82 Separating axes** — R; Farkas-style completeness of the axis lists.
- **C83 Convex hull in the plane** — R; invariant of the monotone chain; induction over the sorted input.
- **C84, C85 Frustum; C86 Plane-bounded volumes** — R; cached state follows every sequence of setter calls.
- **C87, C88 GJK** — R, parametric in the support functions; soundness of both exits for every number of iterations.
- **C89 SAT in the plane** — R; strictly convex polygons of any size.
- **C90–C94 Polygons** — R; crossing-parity and fan-sum arguments by induction over the vertex list.
- **C95–C97 Polyhedron topology** — Z index lists; permutation and multiset arguments; MergeConvex rim as a cycle.
- **C98–C101 Convex polyhedra** — R; MergeConvex keeps the invariant and its solid is the hull, hence by induction any merge sequence builds the hull; climbing along edges; divergence-style sums.
- **C102–C104 Plane segments, triangles, circles** — R; lifting to the 3D results; Helly's theorem for four discs and a decreasing measure for the enclosing-circle loop.
- **C105 TriangleMesh** — exact extended reals (`xr`) and binary32; memory as a list of words, layouts by induction over the triangle groups; the lane-wise search by an invariant "each lane holds the nearest hit among the triangles it has seen".
- **C106 float4** — R; element functions over any total order, binary32 included.
- **C107, C108 Smallest rectangle, boxes of flat point sets** — R; rotating calipers by an invariant on the four supporting edges; area as a concave function between edge directions, so that a minimum sits on an edge; lifting to space for the boxes.

## Findings about the code

Places where the code does not do what its documentation or name says, found while stating the properties.  A theorem in brackets proves
the finding; a property id means it is described in that property's theorems or MANIFEST note; the others were found by reading only.

**Numbers and bits.** The LCG accepts seeds for which the fast stream sticks at zero (C05).  `ExtractLSB` keeps high bits.  `Float32ToFloat16` sets the sign
bit for +inf and NaN, and turns float denormals into huge values; half denormals decode 2^112 too small (C06–C08).  Mini-floats: infinity with fewer than 8
exponent bits overflows its field, unsigned formats do not clamp negative denormals (C61).  `CombinatorialRec` returns 1 outside 0..n (C12).  `Factorial` overflows
from 13.  `PowInt(x, INT_MIN)` is undefined (C13).  `FixedPoint::MulPrecise` overflows and `Sub(T)` does not compile.  `sincos_lookuptable` reads out of bounds.  `EqualUlps` overflows (C63).
`ModPos` can return the modulus, `Frac(-tiny)` is 1, `Round(0.49999997f)` is 1, `PingPongMod` is not positive for negative arguments (C17).

**Vectors and matrices.** `float3::PerpendicularBasis` is wrong for non-unit vectors (C27); `float3::Refract`'s normal part is wrong (C28).  `float2::AngleBetween` has a misplaced parenthesis (C73);
`float2::Orthogonalize` divides by the length instead of its square (C70).  `AABB2D::TransformAsAABB(float3x3)` reads outside the row (C71).  Cholesky always fails for n >= 2 (C33).
`InverseAffineMatrix...Scale` templates use the wrong power of the scale (C34_affine_templates_refuted).  `float3x4::BatchTransformDir` transforms positions (C32).  `float4x4::Adjugate` is the cofactor matrix.
`OrthographicProjection(Plane)` leaves the last row uninitialised (C68).  `Inverse` overwrites the matrix on failure; `IsInvertible` and `Inverse` use different thresholds (C30).
`RemoveScale` normalises rows though the documentation needs columns (C67_RemoveScale_refuted).

**Rotations.** `Quat::RotateFromTo(a, a)` is a half turn (C37).  `SlerpVector(a, a, t)` leaves a (C74).  `Quat::AngleBetween` exceeds pi (C74).  `Quat::Axis` divides by zero for the identity.

**Boxes.** `AABB::PointOnEdge` numbers edges differently from `Edge` (C24).  `TransformAsAABB(Quat)` does not enclose (C25_quat_refuted).  The ray test misses boxes nearly parallel to the ray (C23).
`OBB::PointOnEdge`/`FacePoint` numbering (C51), `Transform` of flat boxes (C51_transform_flat_refuted), nonuniform `Scale` (C51_scale_nonuniform_refuted), `SortedArrayContains` (C51_sorted_array_refuted); default `Intersects` epsilon reports disjoint boxes (C52_default_refuted).

**Planes and lines.** `Plane::Translate` moves the wrong way (C40); `Clip` drops a segment starting on the plane and cuts a line inside it to a ray (C42); three-plane `Intersects`, `IsParallel` with opposite normals, `DihedralAngle` returning the
cosine, near-parallel `ClosestPoint(LineSegment)` (C41); `SignedDistance(Ray)` (C39).  `Contains` of Line, Ray and LineSegment compares a squared distance with the threshold (C75).  `Ray::ProjectToAxis` has a `-1e4f` typo.

**Spheres, circles, capsules.** `Sphere::Enclose(point)` can shrink (C45), `Enclose(Sphere)` fails for nearly concentric spheres (C45), `FastEnclosingSphere` yields NaN on ties (C45_fast_refuted), `MaximalContainedAABB` has half the size (C44),
rays from inside report two hits (C44), `OptimalEnclosingSphere(array)` loses the first point (C78_array_refuted), `Triangulate` winds clockwise (C79).  `Circle::IntersectsDisc` is inverted and the `GetPoint` overloads disagree (C76).
`Capsule::ClosestPoint` is wrong for thin capsules (C50_thin_refuted).  `Circle2D::OptimalEnclosingCircle` loses a corner when the hull is a triangle (C104_array_refuted) and treats small triangles as flat (C104_small_refuted).

**Triangles and polygons.** `IntersectLineTri` misses small triangles (C48_small_refuted); `Intersects(AABB)` is false for degenerate triangles (C49_degenerate_refuted); `Intersects(Triangle)` misses one configuration (C81_corner_refuted) and may leave
`outLine` unwritten (C81_uninitialised_refuted); `IsDegenerate` misses collinear corners (C80_degenerate_refuted); `SignedArea` is twice the area.  `Triangle2D::BarycentricUVW` lacks the division by the area (C103_barycentric_refuted).
`Polygon::NormalCCW` flips for polygons starting at a concave corner (C90_concave_refuted, C94_concave_refuted); `IsPlanar`, `IsConvex` accept wrong polygons (C90_planar_refuted, C90_star_refuted); tiny polygons contain nothing (C91_tiny_refuted);
`Centroid` is the vertex mean (C92_centroid_refuted); in-plane tests shift edges (C93_in_plane_refuted).  `LineSegment2DLineSegment2DIntersect` reports near-parallel segments (C102_near_refuted).

**Algorithms.** GJK reports small or near bodies as intersecting (C87_small_refuted, C88_near_refuted).  `HasCcwWindingOrder` accepts a pentagram (C89).  `float2::ConvexHullContains` with fewer than three vertices accepts far points (C83_small_hull_refuted).

**Frustum.** `Translate`/`Transform` leave the cached matrices stale (C85_stale_refuted); `Contains` accepts points behind the eye (C85_contains_behind_refuted); `AspectRatio` is wrong for orthographic frusta (C85_aspect_refuted).

**Polyhedra.** The predefined solids face inward by default (C97); `ArrayBinarySearch` does not stop for a missing value (C96_search_refuted); `ContainsFace` rotates the wrong way (C96_contains_refuted); `MergeConvex` can leave an open surface when the rim touches itself (the example C97_merge_pinched in PolyTopoProps3.v);
`ConvexCentroid` is wrong for faces with more than three corners (C101_centroid_refuted); `IsConvex` accepts anything small (C101_tiny_refuted); `IntersectsConvex` misses short segments (C98_short_refuted); `ClosestPointConvex` returns points up to 1e-4 outside unchanged (C98_closest_refuted).

**Trees.** KdTree: axis-parallel rays miss objects, `Clear` leaks and leaves a stale root box (C56).  QuadTree: the reserved node array limits growth, associations are stale after `Clear`, touching pairs are missed, NaN or infinite rectangles grow the root forever (C57–C60).

**TriangleMesh.** `Set` hands the old members `numTriangles` and `vertexSizeBytes` (not its arguments) to `SetSoA4`/`SetSoA8`, so in a SIMD build a fresh mesh stays empty (C105_set_simd_actual); `SetConvex` pads with -inf vertices whose lane turns to NaN and loses hits (C105_padding_refuted, C105_padding_actual); the plain query
ignores the vertex stride (C105_stride_refuted).  By reading only: the AVX query compares the determinant with `<` where the SSE one uses `<=`; the lane-wise queries do not enlarge triangles by the 1e-4 the plain one uses; the SSE4.1 flag is never set; `float ds[8]` is stored to with an aligned store.

**float4.** `MaxElement` takes the smaller of z and w (C106_max_element_refuted); `Refract` has float3's wrong normal part (C106_refract_refuted).

**Smallest rectangle and flat boxes.** `MinAreaRectInPlace` misses a point when different points are closer than 1e-3 (C107_close_points_refuted).  `OptimalEnclosingOBB` of two points builds the basis before normalizing the axis, so the box is skew and does not contain its points unless they are exactly 1 apart (C108_two_points_refuted, C108_two_points_actual); for points on a line the planar branch returns a box with a zero axis that misses points (C108_collinear_refuted).

**Polygon::Contains2D** compares a segment in the polygon's local coordinates with edges not shifted to the polygon's origin, so it accepts segments that leave the polygon (C93_contains2D_refuted).

**Random numbers**: `float3::RandomPerpendicular` returns (0, 0, 1), which need not be perpendicular, when the random direction is parallel to the vector (C109_perpendicular_refuted); `Frustum::UniformRandomPointInside` can return points slightly outside a perspective frustum (C109_frustum_refuted).

**Clock::IsNewer** is true of equal ticks, although documented as "later" (C110_later_refuted).

**OBB::ToPolyhedron** of a box with left-handed axes has all faces turned inwards; the centre of the box is outside according to ContainsConvex (C111_obb_left_refuted).

**Plane::Contains(Polygon)** uses its tolerance on the offset of the polygon's plane once there are three vertices: a triangle all of whose vertices are within the tolerance of the plane is rejected (C112_plane_tolerance_refuted).

## Axioms per theorem (`Print Assumptions`)

**No axioms** (closed under the global context):
C01_stream_in_range, C02_full_period, C02_bad_seeds_refuted, C09_minifloat_round_trip, C09_minifloat_infinity_refuted, C10_is_pow2, C10_round_up,
C10_round_down, C10_round_multiple, C11_count_bits, C11_masks, C11_masks64, C11_pack_extract, C11_extract_lsb, C11_extract_lsb_high_refuted,
C11_binary_string, C12_tab, C12_tab_outside, C12_rec, C12_rec_outside_refuted, C12_factorial, C12_factorial_overflow, C13_pow_int_min,
C15_add_sub_defined, C15_mul_precise_defined, C15_mul_precise_overflow_refuted, C16_min, C16_max, C16_min_max_many, C16_clamp, C19_enclose_history,
C19_enclose_order, C20_contains_point, C20_contains_box, C20_intersection, C20_disjoint, C20_symmetric, C21_closest_inside, C24_corners, C24_edges,
C24_point_on_edge_bijective, C24_extreme_points_of_array, C51_sorted_array_actual, C51_sorted_array_refuted, C57_contents, C57_no_invalid_access,
C60_counts, C60_height, C61_unsigned_clamps_negative, C63_equal_ulps, C63_equal_ulps_overflow_refuted, C69_elements, C69_clamp, C95_closed,
C95_closed_valid, C95_valid, C95_edges, C95_num_edges, C95_flip, C95_adjacency, C96_degenerate, C96_search, C96_search_refuted, C96_redundant,
C96_swap, C96_canonical, C96_canonical_unique, C96_contains_actual, C96_contains_refuted, C96_contains_canonical, C97_merge, C97_solids, C97_capsule,
C105_soa_layout, C105_padding_shape, C106_elements, C106_max_element_actual, C106_min_max, C106_clamp, C110_between, C110_newer, C110_order,
C110_later_refuted, C110_milliseconds, C112_box_contains_exact, C112_box_encloses_exact.

**`ClassicalDedekindReals.sig_forall_dec`, `FunctionalExtensionality.functional_extensionality_dep`**:
C06_half_round_trip, C06_half_round_trip_refuted, C06_positive_infinity_becomes_negative_refuted, C07_half_decode_value, C07_half_denormal_refuted,
C08_half_truncates, C08_half_out_of_range, C14_float, C14_double, C15_add, C15_add_narrow, C15_sub, C15_compare, C15_compare_int, C15_int_frac,
C15_mul_precise, C15_mul_extra_fast, C15_div_extra_fast, C15_ratio_constructor, C15_int_operands, C15_mul_fast, C61_minifloat_decode_value,
C61_minifloat_truncates, C61_unsigned_negative_denormal_refuted, C63_ordinal_monotone, C83_halfplanes.

**`ClassicalDedekindReals.sig_forall_dec`, `ClassicalDedekindReals.sig_not_dec`, `FunctionalExtensionality.functional_extensionality_dep`**:
C13_pow_uint, C13_pow_int, C17_modpos, C17_frac, C17_round, C17_pingpong, C17_pingpong_negative_refuted, C18_two_roots, C18_no_roots, C18_one_root,
C18_outcomes, C19_enclose_shapes, C19_set_from_shapes, C20_intersects, C20_contains_shapes, C21_closest_nearest, C21_distance, C22_box_sphere,
C23_line_box, C23_ray_and_line, C23_segment, C23_near_parallel_refuted, C24_extreme_point, C24_project_to_axis, C24_point_on_edge,
C24_point_on_edge_numbering_refuted, C24_faces, C24_point_inside, C24_minimal_enclosing_sphere, C24_maximal_contained_sphere, C24_volume_surface,
C25_transform, C25_translate_scale, C25_quat_refuted, C25_quat_actual, C26_normalize, C26_scale_to_length, C26_clamp_length, C26_clamp_length2,
C26_distance_metric, C26_dot_cross, C27_perpendicular, C27_perpendicular_default, C27_another_perpendicular, C27_perpendicular_basis,
C27_perpendicular_basis_unnormalized_refuted, C28_reflect, C28_project, C28_decompose, C28_refract_tangential, C28_refract_straight_refuted,
C29_orthogonalize, C29_orthonormalize, C30_InverseMatrix, C30_Inverse, C30_InverseFast, C30_InverseSymmetric, C30_InverseOrthogonal,
C30_InverseOrthonormal, C30_InverseTranspose, C30_InverseFast_small_refuted, C31_SolveAxb, C31_SolveAxb_complete, C32_product_composition,
C32_mixed_products, C32_determinant, C32_determinant4, C32_linear, C32_shear, C32_predicates, C33_LU, C33_LU_complete, C33_LUDecompose,
C33_Cholesky_refuted, C33_CholeskyDecompose_refuted, C33_pivot, C33_pivot4, C34_affine_inverses, C34_affine_templates_refuted, C34_BatchTransform,
C34_BatchTransformDir_refuted, C34_Adjugate, C34_Adjugate_refuted, C34_affine_templates, C35_rotation, C35_composition, C35_inverse, C35_algebra,
C35_normalize, C35_matrix_products, C35_equals, C36_round_trip, C36_back, C36_sign, C36_decompose, C37_matrix, C37_quat, C37_quat_parallel_refuted,
C37_LookAt, C39_through_points, C39_containing, C39_distance, C39_mirror, C39_point, C39_signed_distance_objects, C39_signed_distance_ray_refuted,
C39_distance_objects, C40_transform, C40_rotation, C40_translate_actual, C40_translate_refuted, C41_line, C41_ray, C41_segment, C41_segment_sign,
C41_sphere_box_triangle, C41_vertices, C41_two_planes, C41_parallel_planes, C41_three_planes, C41_three_planes_parallel_refuted, C41_circle,
C41_closest_ray, C41_closest_segment, C41_closest_segment_parallel_refuted, C41_contains, C41_contains_line, C41_contains_circle, C41_sides,
C41_set_equals, C41_parallel_opposite_refuted, C41_dihedral_refuted, C41_project_objects, C42_clip_segment, C42_clip_segment_from_plane_refuted,
C42_clip_line, C42_clip_line_in_plane_refuted, C42_clip_triangle, C43_line_line, C43_line_ray, C43_line_segment, C43_ray_line, C43_ray_ray,
C43_ray_segment, C43_segment_line, C43_segment_ray, C43_segment_segment, C43_point, C43_distances_line, C43_distances_ray, C43_distances_segment,
C43_distance_sphere_capsule, C43_segments_intersect, C43_segment_line_parameters_swapped_refuted, C44_contains_point, C44_contains_shapes,
C44_contains_balls, C44_intersect_line, C44_line, C44_ray, C44_ray_count_refuted, C44_segment, C44_segment_point_refuted, C44_distances,
C44_closest_point, C44_plane_circle, C44_extreme, C44_project, C44_project_refuted, C44_transforms, C44_boxes, C44_maximal_box_refuted, C44_volume,
C44_measures, C45_enclose_point, C45_enclose_shrinks_refuted, C45_history, C45_order, C45_enclose_shapes, C45_enclose_sphere,
C45_enclose_sphere_refuted, C45_enclose_capsule, C45_extend_radius, C45_extend_history, C45_fast, C46_barycentric, C46_any_point, C46_point,
C46_inside, C46_contains, C46_contains_seg_tri, C47_point, C47_outline, C47_line, C47_small_refuted, C48_line_triangle, C48_intersects,
C48_small_refuted, C49_degenerate_refuted, C50_contains, C50_contains_shapes, C50_from_sphere, C50_distances, C50_closest, C50_thin_refuted,
C50_extreme, C50_project, C50_height, C50_cross_section, C50_boxes, C50_intersects, C50_transforms, C50_volume, C50_ends, C51_contains, C51_corners,
C51_contains_shapes, C51_contained, C51_closest, C51_sphere, C51_extreme, C51_project, C51_plane, C51_bounds, C51_point_inside, C51_edges,
C51_point_on_edge_actual, C51_edge_numbering_refuted, C51_faces, C51_face_numbering_refuted, C51_local, C51_enclose, C51_volume, C51_transforms,
C51_transform_frame, C51_transform_flat_refuted, C51_scale, C51_scale_uniform, C51_scale_nonuniform_refuted, C51_set_from, C51_ray_and_line,
C51_segment, C51_enclosing_sphere, C51_extreme_points, C51_fixed_orientation, C51_compatible_edges, C51_opposing_edges, C51_antipodal,
C51_circle_faces, C51_diagonals, C52_disjoint, C52_tolerance, C52_from_aabb, C52_default_refuted, C57_terminates, C57_growth_towards,
C58_query_complete, C59_pairs, C60_children_tile, C60_root_region, C62_lerp_inverse, C62_ramp, C62_lerp_mod, C62_sign, C62_step, C62_equal_rel,
C64_symmetry, C64_smooth_step_flat, C65_transform_ops, C65_translate4, C65_translate4_projective_refuted, C65_about_point, C65_ScaleAlongAxis_refuted,
C66_view_volume, C66_image, C67_Decompose, C67_FromTRS, C67_RemoveScale_refuted, C67_remove_scale, C68_plane_matrices, C68_LookAt, C68_LookAt_eye,
C69_reductions, C69_lerp, C69_perpendicular, C69_normalized, C69_orthonormal_predicates, C69_equals, C69_componentwise, C70_length, C70_normalize,
C70_scale_to_length, C70_perp, C70_project, C70_reflect, C70_lerp, C70_elements, C70_orthogonalize_refuted, C70_orthogonalize_unit,
C70_refract_straight_refuted, C70_negate, C71_predicates, C71_enclose, C71_distance, C71_coordinates, C71_transform, C74_lerp, C74_slerp,
C74_slerp_vector, C74_slerp_vector_refuted, C75_transforms, C75_from_segment, C75_cut, C75_extreme, C75_project_segment, C75_project_line,
C75_project_ray, C75_project_ray_negative_refuted, C75_contains, C75_contains_segment, C75_contains_ray_refuted, C75_equals_ray_segment,
C75_equals_line, C76_basis, C76_extreme, C76_closest_disc, C76_transforms, C76_intersects_disc_actual, C76_intersects_disc_refuted,
C76_near_axis_refuted, C76_intersects_disc_miss, C78_fit3, C78_fit4, C78_optimal2, C78_optimal3, C78_optimal4, C78_optimal5, C78_up_to_four, C78_fuel,
C78_array_refuted, C79_triangulate, C79_too_few, C79_random, C80_measures, C80_planes, C80_extreme, C80_bounds, C80_areas, C80_transforms,
C80_degenerate, C80_degenerate_refuted, C80_random, C81_crossing, C81_apart, C81_parallel, C81_corner_refuted, C83_line, C83_copy, C83_contains,
C83_small_hull_refuted, C84_closest, C84_transform, C85_world, C85_set_world, C85_screen, C86_contains, C86_aabb, C86_sphere, C87_small_refuted,
C88_miss, C88_shapes, C88_near_refuted, C89_distance, C89_winding, C89_winding_refuted, C89_clockwise_refuted, C89_short_edge_refuted,
C89_points_refuted, C90_plane, C90_basis, C90_planar, C90_convex, C90_edge_normals, C90_concave_refuted, C90_planar_refuted, C90_star_refuted,
C91_sound, C91_even_odd, C91_tiny_refuted, C92_area, C92_point_on_edge, C92_extremes, C92_plane, C92_centroid_refuted, C92_images,
C93_in_plane_refuted, C94_triangles, C94_area, C94_concave_refuted, C98_contains, C98_contains_objects, C98_clip, C98_intersects, C98_short_refuted,
C100_extremes, C100_nearest, C101_volume, C101_convex, C101_convex_iff, C101_tiny_refuted, C101_transform, C101_translate, C101_centroid_refuted,
C101_planar, C101_planar_reject, C101_linear, C101_box, C101_small_faces, C102_point, C102_pair, C102_distances, C102_tests, C102_forms, C102_ranges,
C102_crossing, C102_same_line, C102_near_refuted, C103_closest, C103_barycentric_actual, C103_barycentric_refuted, C103_unit_barycentric, C103_parts,
C103_extents, C103_transforms, C103_degenerate, C103_degenerate_refuted, C103_random, C104_disc, C104_three, C104_array_refuted, C104_small_refuted,
C104_random, C105_soa_ray, C105_soa_exact, C105_cpp_ray, C105_set_simd_actual, C105_padding_actual, C106_max_element_refuted, C106_lengths,
C106_distances, C106_normalize, C106_normalize3, C106_normalize_w, C106_scale_to_length, C106_predicates, C106_cross, C106_perpendicular,
C106_perpendicular_default, C106_another_perpendicular, C106_perpendicular3, C106_perpendicular_basis, C106_project, C106_project_norm, C106_reflect,
C106_reflect3, C106_refract_tangential, C106_refract_refuted, C106_orthonormalize2, C106_orthonormalize3, C106_are_orthonormal, C106_lerp,
C106_collinear, C106_outer, C106_sums, C106_componentwise, C107_close_points_refuted, C108_encloses, C108_one_point, C108_two_points_actual,
C108_two_points_refuted, C109_vectors, C109_dir2, C109_rotations, C109_perpendicular, C109_perpendicular_refuted, C109_aabb, C109_obb, C109_capsule,
C111_obb, C111_obb_left_refuted, C111_aabb, C111_box_volume, C111_polygon, C111_triangle, C112_plane_holds_polygon, C112_plane_holds_few,
C112_plane_tolerance_refuted, C115_symmetric.

**`ClassicalDedekindReals.sig_forall_dec`, `ClassicalDedekindReals.sig_not_dec`, `Classical_Prop.classic`, `FunctionalExtensionality.functional_extensionality_dep`**:
C01_draws_in_range, C03_float_ranges, C03_float_range_ab, C03_float_incl_ab, C03_overflow_refuted, C04_int_range, C04_overflow_undefined,
C05_intfast_nonzero, C05_multiplier_one_refuted, C16_clamp01_f32, C17_modpos_f32, C17_frac_f32, C17_f32_half_open_refuted,
C19_from_negative_infinity_f32, C19_set_from_points_f32, C21_closest_nearest_f32, C30_InverseMatrix_complete, C30_Inverse_complete,
C33_Cholesky_f32_refuted, C33_CholeskyDecompose_f32_refuted, C38_axis_angle, C38_elementary, C38_euler, C38_axis_angle_of_quat, C41_dihedral_actual,
C45_fast_refuted, C47_segment, C47_distances, C47_triangle, C49_box, C50_point_inside, C50_point_inside_onto, C50_surface, C50_intersects_triangle,
C51_triangle, C52_sat, C52_exact, C52_aabb, C53_build_never_out_of_bounds, C53_every_object_in_a_leaf, C53_leaves_hold_only_objects,
C53_leaves_own_their_bucket, C54_query_visits, C54_query_outside_root, C54_query_complete, C55_height, C55_depth, C55_nodes_reachable, C55_counts,
C55_childIndex_fits, C55_query_stack_safe, C55_query_after_clear_refuted, C56_ray_query_safe, C56_ray_query_complete_partial,
C56_axis_parallel_refuted, C56_near_split_exit_refuted, C57_remove_after_clear_refuted, C57_add_before_clear_refuted, C58_query_complete_binary32,
C58_growth_binary32_refuted, C59_pairs_binary32, C59_touching_refuted, C64_smooth_start, C64_smooth_stop, C64_smooth_step, C69_elements_f32,
C72_extract, C72_recover, C73_angles, C73_spherical, C73_spherical_small, C73_spherical_back, C73_spherical_normalized, C73_polar, C73_AngleBetween2,
C73_AngleBetween2_refuted, C74_slerp_vector_abs, C74_orientations, C74_shortest_refuted, C76_points, C76_closest_edge, C76_overloads_refuted,
C81_coplanar, C81_uninitialised_refuted, C82_box_box, C82_box_triangle, C82_triangle_box, C82_triangle_triangle, C83_hull, C83_exact,
C83_contains_polygon, C84_planes, C84_corners, C84_edges, C84_extreme, C84_aabb, C84_obb, C84_points, C84_rays, C84_directions, C85_caches,
C85_project, C85_contains, C85_aspect, C85_stale_refuted, C85_contains_behind_refuted, C85_aspect_refuted, C86_frustum, C87_miss, C87_hit, C87_test,
C87_shapes, C87_frustum, C87_capsule, C88_hit, C88_test, C88_polygons, C89_collide, C89_separates, C89_depth, C89_result, C91_complete,
C91_thickness_refuted, C93_line, C93_ray, C93_segment, C93_contains_segment, C93_contains2D_refuted, C94_convex, C94_closest, C98_closest,
C98_closest_refuted, C99_merge, C99_merge_all, C100_local, C100_climb, C101_orient, C101_centroid, C104_array, C105_padding_refuted,
C105_stride_refuted, C106_elements_f32, C106_angle, C106_angle3, C106_angle_norm, C106_spherical, C106_spherical_back, C107_smallest, C108_one_edge,
C108_planar, C108_collinear_refuted, C109_polygon, C109_frustum_fast, C109_frustum_uniform, C109_frustum_refuted, C111_frustum, C111_frustum_volume,
C112_box_contains, C112_box_encloses, C112_empty_f32, C112_contains_frustum, C112_frustum_in_frustum, C112_sphere_encloses, C112_signed_distance,
C112_cut, C113_sphere, C113_capsule, C113_closest_segment, C114_aabb, C114_obb, C115_across.
