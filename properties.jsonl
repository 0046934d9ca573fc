{"id": "C01", "title": "Random draws stay in range", "statement": "After any Seed call and any number of further draws, LCG::Int() returns a value in [0, modulus-1] (and never exceeds LCG::MaxInt()).", "quantifier": "every seed, multiplier, increment and non-zero modulus (32-bit), every number of draws", "why_tests_cant": "The state space is 2^32 per parameter set and the history is unbounded.", "anchors": ["src/Algorithm/Random/LCG.h:LCG", "src/Algorithm/Random/LCG.cpp:LCG::Seed,LCG::Int"]}
{"id": "C02", "title": "Default generator has full period", "statement": "An LCG seeded with the default parameters by any seed not divisible by the modulus 2^31-1 produces a purely periodic, never-zero stream of period exactly 2^31-2. (Two 32-bit seeds, 0x7FFFFFFF and 0xFFFFFFFE, violate 'never degenerates'.)", "quantifier": "every 32-bit seed, every position in the stream", "why_tests_cant": "Checking one seed already takes 2^31 draws, and the claim is about all seeds and positions.", "anchors": ["src/Algorithm/Random/LCG.h:LCG", "src/Algorithm/Random/LCG.cpp:LCG::Seed,LCG::Int"]}
{"id": "C03", "title": "Random floats stay in their documented interval", "statement": "LCG::Float() is a finite binary32 in [0,1), Float01Incl() in [0,1], FloatNeg1_1() in (-1,1), and the returned value is an exact multiple of 2^-23.", "quantifier": "every generator state and parameter set", "why_tests_cant": "All 2^32 states times all parameter sets; rounding at the interval ends is the issue.", "anchors": ["src/Algorithm/Random/LCG.cpp:LCG::Float,LCG::Float01Incl,LCG::FloatNeg1_1"]}
{"id": "C04", "title": "Random integers from a range stay in the range", "statement": "LCG::Int(a,b) returns a value in [a,b] for a<=b whenever b-a+1 does not overflow int.", "quantifier": "every generator state, every pair a<=b of ints with b-a+1 representable", "why_tests_cant": "The boundary cases depend on float rounding of Float()*(b-a+1) over 2^64 argument pairs.", "anchors": ["src/Algorithm/Random/LCG.cpp:LCG::Int(int,int)"]}
{"id": "C05", "title": "Fast random stream never sticks at zero", "statement": "With an odd multiplier other than 1, LCG::IntFast() never reaches the all-zero state from a non-zero state (a finding: seeds/multipliers for which it does).", "quantifier": "every non-zero 32-bit state and odd multiplier, every number of draws", "why_tests_cant": "Unbounded histories over a 2^32 state space.", "anchors": ["src/Algorithm/Random/LCG.cpp:LCG::IntFast"]}
{"id": "C06", "title": "Half-float decode/encode round trip", "statement": "Encoding the decoding of a half gives back the same 16 bits for every half that is not a positive infinity or NaN (denormals and zeros included); positive infinities and NaNs come back with the sign bit set, so the unrestricted round trip is false.", "quantifier": "all 16-bit patterns (stated on bit patterns, proved by bit-level reasoning)", "why_tests_cant": "A library user relies on every pattern, including denormals, infinities and NaNs.", "anchors": ["src/Math/MiniFloat.cpp:Float16ToFloat32,Float32ToFloat16"]}
{"id": "C07", "title": "Half-float decode has the IEEE value", "statement": "Float16ToFloat32 of a normal half, zero or infinity denotes the same real number as the half; for half denormals the code is wrong.", "quantifier": "all 16-bit patterns", "why_tests_cant": "Value semantics must hold for each encoding; tests compare a few literals.", "anchors": ["src/Math/MiniFloat.cpp:Float16ToFloat32"]}
{"id": "C08", "title": "Encoding to half truncates toward zero", "statement": "For a float in the normal half range, Float32ToFloat16 gives the half with the same sign whose magnitude is the largest half not exceeding the float's magnitude. Larger magnitudes become the infinity of the same sign, normal floats below 2^-14 become the zero of the same sign.", "quantifier": "all 2^32 float bit patterns in the normal half range", "why_tests_cant": "2^32 inputs; off-by-one rounding errors hide at exponent boundaries.", "anchors": ["src/Math/MiniFloat.cpp:Float32ToFloat16"]}
{"id": "C09", "title": "Mini-float round trip", "statement": "For any layout (sign bit or not, exponent bits, mantissa bits, bias) that fits, encoding the decoding of a mini-float pattern with zero or normal exponent gives back the pattern; for the all-ones exponent this is false whenever the layout has fewer than 8 exponent bits.", "quantifier": "every layout and every pattern", "why_tests_cant": "The function is generic over layouts; tests fix a handful.", "anchors": ["src/Math/MiniFloat.cpp:Float32ToMiniFloat,MiniFloatToFloat32"]}
{"id": "C10", "title": "Power-of-two predicates and rounding", "statement": "IsPow2(x) holds exactly for 0 and powers of two; RoundUpPow2/RoundDownPow2 return the least power of two >= x / greatest <= x, when it is representable; RoundIntUpToMultipleOfPow2 returns the least multiple.", "quantifier": "all 32-bit and 64-bit arguments", "why_tests_cant": "2^64 inputs.", "anchors": ["src/Math/MathFunc.h:IsPow2,RoundUpPow2,RoundDownPow2,RoundIntUpToMultipleOfPow2"]}
{"id": "C11", "title": "Bit utilities", "statement": "CountBitsSet is the population count; LSB(n)/BitMask select exactly the requested bits; ExtractBits of PackBits returns the packed field and leaves other bits alone.", "quantifier": "all 32-bit words, all field positions", "why_tests_cant": "2^32 words times all fields.", "anchors": ["src/Math/BitOps.h:CountBitsSet,LSB,BitMask,PackBits,ExtractBits"]}
{"id": "C12", "title": "Binomial coefficients", "statement": "CombinatorialTab(n,k) is the binomial coefficient C(n,k) for every n,k whose value fits, CombinatorialRec agrees for 0<=k<=n (a finding: it returns 1 outside).", "quantifier": "all 0<=k<=n with no int overflow", "why_tests_cant": "Recursive definitions over unbounded n,k.", "anchors": ["src/Math/MathFunc.cpp:CombinatorialRec,CombinatorialTab"]}
{"id": "C13", "title": "Integer powers", "statement": "PowUInt(b,e) equals b^e computed in the same arithmetic (exact over the reals), PowInt(b,e) equals b^e for negative e too, b<>0.", "quantifier": "all bases, all exponents (except INT_MIN)", "why_tests_cant": "Repeated squaring must be right for every exponent.", "anchors": ["src/Math/MathFunc.cpp:PowUInt,PowInt"]}
{"id": "C14", "title": "Float classification", "statement": "IsFinite, IsNan and IsInf partition all float bit patterns exactly as IEEE-754 does.", "quantifier": "all 2^32 bit patterns", "why_tests_cant": "2^32 inputs and bit tricks.", "anchors": ["src/Math/MathFunc.h:IsFinite,IsNan,IsInf"]}
{"id": "C15", "title": "Fixed-point arithmetic", "statement": "FixedPoint addition and subtraction are exact, comparisons agree with the represented rationals, and precise multiplication is the floor of the exact product, when no overflow occurs.", "quantifier": "all representable operands, all numbers of fraction bits", "why_tests_cant": "2^64 operand pairs for each format.", "anchors": ["src/Math/FixedPoint.h:FixedPoint,Add,Sub,MulPrecise"]}
{"id": "C16", "title": "Clamp, Min, Max laws", "statement": "Min/Max/Clamp/Clamp01 return one of their arguments and obey order laws for every ordered input, also in binary32 including infinities and signed zeros.", "quantifier": "all non-NaN inputs", "why_tests_cant": "a sample of inputs leaves the rest of an unbounded (or 2^32..2^96 sized) input space unchecked", "anchors": ["src/Math/MathFunc.h:Min,Max,Clamp,Clamp01"]}
{"id": "C17", "title": "Periodic helpers", "statement": "ModPos lands in [0,mod), Frac in [0,1), PingPongMod in [0,mod] (real arithmetic; findings: fails in binary32 by rounding; PingPongMod fails for negative input).", "quantifier": "all x, all positive mod", "why_tests_cant": "a sample of inputs leaves the rest of an unbounded (or 2^32..2^96 sized) input space unchecked", "anchors": ["src/Math/MathFunc.cpp:Mod,ModPos,PingPongMod", "src/Math/MathFunc.h:Frac"]}
{"id": "C18", "title": "Quadratic solver", "statement": "Every root SolveQuadratic reports satisfies the equation (exactly over the reals when two roots are reported), and it reports none only if there is none (up to its tolerance).", "quantifier": "all coefficients with a<>0", "why_tests_cant": "a sample of inputs leaves the rest of an unbounded (or 2^32..2^96 sized) input space unchecked", "anchors": ["src/Math/Polynomial.cpp:Polynomial::SolveQuadratic"]}
{"id": "C19", "title": "Enclosing boxes", "statement": "After SetNegativeInfinity and any sequence of Enclose calls (points, boxes, spheres, segments, triangles), the AABB contains everything enclosed, and for points and boxes it is the smallest such AABB, whatever the order; exact in binary32 for points and boxes.", "quantifier": "all finite sequences of inputs", "why_tests_cant": "Unbounded histories.", "anchors": ["src/Geometry/AABB.cpp:AABB::Enclose,AABB::SetFrom,AABB::SetNegativeInfinity"]}
{"id": "C20", "title": "Box overlap tests agree with geometry", "statement": "AABB::Intersects(AABB) holds exactly if the interiors meet; Contains(AABB) holds exactly if every point is contained; Intersection returns exactly the common points.", "quantifier": "all pairs of boxes", "why_tests_cant": "a sample of inputs leaves the rest of an unbounded (or 2^32..2^96 sized) input space unchecked", "anchors": ["src/Geometry/AABB.cpp:AABB::Intersects,AABB::Contains,AABB::Intersection"]}
{"id": "C21", "title": "Closest point on a box", "statement": "AABB::ClosestPoint(p) lies in the box and no point of the box is nearer to p; Distance is zero exactly if p is contained.", "quantifier": "all non-empty boxes and points", "why_tests_cant": "a sample of inputs leaves the rest of an unbounded (or 2^32..2^96 sized) input space unchecked", "anchors": ["src/Geometry/AABB.cpp:AABB::ClosestPoint,AABB::Distance"]}
{"id": "C22", "title": "Box/sphere test", "statement": "AABB::Intersects(Sphere) holds exactly if some point is in both.", "quantifier": "all boxes and spheres", "why_tests_cant": "a sample of inputs leaves the rest of an unbounded (or 2^32..2^96 sized) input space unchecked", "anchors": ["src/Geometry/AABB.cpp:AABB::Intersects(Sphere)"]}
{"id": "C23", "title": "Line, ray and segment against a box", "statement": "AABB::Intersects(Line/Ray/LineSegment, dNear, dFar) holds exactly if some parameter in the primitive's range gives a point in the box, and [dNear,dFar] is that parameter interval (away from the near-parallel tolerance).", "quantifier": "all boxes, positions and directions", "why_tests_cant": "a sample of inputs leaves the rest of an unbounded (or 2^32..2^96 sized) input space unchecked", "anchors": ["src/Geometry/AABB.cpp:AABB::IntersectLineAABB_CPP,AABB::Intersects(Ray),AABB::Intersects(LineSegment)"]}
{"id": "C24", "title": "Support functions of a box", "statement": "ExtremePoint(dir) is a point of the box maximising the projection on dir, ProjectToAxis returns the exact interval of projections; all corner/edge/face enumerations give points on the boundary.", "quantifier": "all boxes, directions and indices", "why_tests_cant": "a sample of inputs leaves the rest of an unbounded (or 2^32..2^96 sized) input space unchecked", "anchors": ["src/Geometry/AABB.cpp:AABB::ExtremePoint,AABB::ProjectToAxis,AABB::CornerPoint,AABB::Edge,AABB::FacePoint"]}
{"id": "C25", "title": "Transforming a box", "statement": "AABB::TransformAsAABB(M) contains the image of every point of the box (and is minimal) for matrix transforms (a finding: the quaternion overload does not).", "quantifier": "all boxes and affine maps", "why_tests_cant": "a sample of inputs leaves the rest of an unbounded (or 2^32..2^96 sized) input space unchecked", "anchors": ["src/Geometry/AABB.cpp:AABB::TransformAsAABB"]}
{"id": "C26", "title": "Vector length operations", "statement": "Normalize gives unit length in the same direction when it reports success, ScaleToLength/ClampLength give the requested length, Distance is a metric, and the Dot/Cross identities hold.", "quantifier": "all vectors", "why_tests_cant": "a sample of inputs leaves the rest of an unbounded (or 2^32..2^96 sized) input space unchecked", "anchors": ["src/Math/float3.cpp:float3::Normalize,float3::ScaleToLength,float3::ClampLength,float3::Distance,float3::Cross"]}
{"id": "C27", "title": "Perpendicular bases", "statement": "Perpendicular, AnotherPerpendicular and PerpendicularBasis return unit vectors orthogonal to the input and to each other.", "quantifier": "all (unit) vectors and hints", "why_tests_cant": "a sample of inputs leaves the rest of an unbounded (or 2^32..2^96 sized) input space unchecked", "anchors": ["src/Math/float3.cpp:float3::Perpendicular,float3::AnotherPerpendicular,float3::PerpendicularBasis"]}
{"id": "C28", "title": "Reflection, refraction and projection of vectors", "statement": "Reflect preserves length and reverses the tangential part as documented, Refract obeys Snell's law, ProjectTo/Decompose split a vector into parallel and perpendicular parts.", "quantifier": "all vectors and unit normals", "why_tests_cant": "a sample of inputs leaves the rest of an unbounded (or 2^32..2^96 sized) input space unchecked", "anchors": ["src/Math/float3.cpp:float3::Reflect,float3::Refract,float3::ProjectTo,float3::Decompose"]}
{"id": "C29", "title": "Orthonormalisation", "statement": "Orthogonalize/Orthonormalize produce mutually orthogonal (unit) vectors spanning the same subspaces, for linearly independent input.", "quantifier": "all triples of independent vectors", "why_tests_cant": "a sample of inputs leaves the rest of an unbounded (or 2^32..2^96 sized) input space unchecked", "anchors": ["src/Math/float3.cpp:float3::Orthogonalize,float3::Orthonormalize"]}
{"id": "C30", "title": "Matrix inverse", "statement": "When Inverse/InverseFast/InverseSymmetric/InverseColOrthogonal/InverseOrthonormal report success (preconditions met), the result multiplied with the original matrix is the identity.", "quantifier": "all 3x3 matrices meeting each precondition", "why_tests_cant": "a sample of inputs leaves the rest of an unbounded (or 2^32..2^96 sized) input space unchecked", "anchors": ["src/Math/float3x3.cpp:float3x3::Inverse,float3x3::InverseFast,float3x3::InverseSymmetric", "src/Math/Matrix.inl:InverseMatrix"]}
{"id": "C31", "title": "Linear solver", "statement": "When float3x3::SolveAxb returns true the returned x satisfies A x = b.", "quantifier": "all 3x3 systems", "why_tests_cant": "a sample of inputs leaves the rest of an unbounded (or 2^32..2^96 sized) input space unchecked", "anchors": ["src/Math/float3x3.cpp:float3x3::SolveAxb"]}
{"id": "C32", "title": "Matrix algebra", "statement": "Matrix product corresponds to composition of transforms; determinant is multiplicative, invariant under transpose, and equals the signed volume spanned by the columns.", "quantifier": "all 3x3 matrices", "why_tests_cant": "a sample of inputs leaves the rest of an unbounded (or 2^32..2^96 sized) input space unchecked", "anchors": ["src/Math/float3x3.cpp:float3x3::Determinant,float3x3::operator*,float3x3::Transposed"]}
{"id": "C33", "title": "Triangular factorisations", "statement": "LUDecompose success gives lower*upper = matrix with unit lower diagonal; CholeskyDecompose success gives lower*lower^T = matrix (a finding: it rejects every matrix with a non-zero diagonal).", "quantifier": "all 3x3 matrices", "why_tests_cant": "a sample of inputs leaves the rest of an unbounded (or 2^32..2^96 sized) input space unchecked", "anchors": ["src/Math/Matrix.inl:LUDecomposeMatrix,CholeskyDecomposeMatrix"]}
{"id": "C34", "title": "Affine inverses", "statement": "InverseOrthonormal/InverseOrthogonalUniformScale/InverseColOrthogonal of 3x4 matrices invert the transform under their preconditions (a finding: the scaled variants use the wrong scale).", "quantifier": "all affine maps meeting the precondition", "why_tests_cant": "a sample of inputs leaves the rest of an unbounded (or 2^32..2^96 sized) input space unchecked", "anchors": ["src/Math/Matrix.inl:InverseAffineMatrixNoScale,InverseAffineMatrixUniformScale,InverseAffineMatrixNonuniformScale"]}
{"id": "C35", "title": "Quaternion rotations", "statement": "Rotating by a unit quaternion preserves lengths, angles and handedness; quaternion product composes rotations; Inverse undoes; the matrix form agrees.", "quantifier": "all unit quaternions and vectors", "why_tests_cant": "a sample of inputs leaves the rest of an unbounded (or 2^32..2^96 sized) input space unchecked", "anchors": ["src/Math/Quat.cpp:Quat::Transform,Quat::operator*,Quat::Inverse", "src/Math/Matrix.inl:SetMatrixRotatePart"]}
{"id": "C36", "title": "Quaternion from matrix", "statement": "Converting a rotation matrix to a quaternion and back gives the matrix.", "quantifier": "all rotation matrices", "why_tests_cant": "a sample of inputs leaves the rest of an unbounded (or 2^32..2^96 sized) input space unchecked", "anchors": ["src/Math/Quat.cpp:SetQuatFrom"]}
{"id": "C37", "title": "Rotation between directions", "statement": "RotateFromTo(a,b) maps a to b for all unit a,b (quaternion and 3x3 matrix versions; a finding: the quaternion version maps a to something else when a==b).", "quantifier": "all pairs of unit vectors", "why_tests_cant": "a sample of inputs leaves the rest of an unbounded (or 2^32..2^96 sized) input space unchecked", "anchors": ["src/Math/Quat.cpp:Quat::RotateFromTo", "src/Math/float3x3.cpp:float3x3::RotateFromTo"]}
{"id": "C38", "title": "Euler angles", "statement": "FromEulerXYZ etc. equal the product of the elementary rotations in the documented order, and elementary and axis-angle rotations are proper rotations about the axis.", "quantifier": "all angles, all unit axes", "why_tests_cant": "a sample of inputs leaves the rest of an unbounded (or 2^32..2^96 sized) input space unchecked", "anchors": ["src/Math/Matrix.inl:Set3x3PartRotateEulerXYZ,SetRotationAxis3x3,Set3x3PartRotateX"]}
{"id": "C39", "title": "Plane construction, distance and projection", "statement": "The plane through three points contains them; SignedDistance is signed Euclidean distance; Project gives the nearest plane point; Mirror is an involution negating the signed distance; MirrorMatrix/OrthoProjection agree.", "quantifier": "all planes with unit normal, all points", "why_tests_cant": "a sample of inputs leaves the rest of an unbounded (or 2^32..2^96 sized) input space unchecked", "anchors": ["src/Geometry/Plane.cpp:Plane::Set,Plane::SignedDistance,Plane::Project,Plane::Mirror"]}
{"id": "C40", "title": "Moving planes", "statement": "Translating/transforming a plane gives the plane whose points are the translated/transformed points (a finding: Translate moves the plane the wrong way).", "quantifier": "all planes, offsets and invertible maps", "why_tests_cant": "a sample of inputs leaves the rest of an unbounded (or 2^32..2^96 sized) input space unchecked", "anchors": ["src/Geometry/Plane.cpp:Plane::Translate,Plane::Transform"]}
{"id": "C41", "title": "Plane against points, lines, segments, triangles, spheres, boxes, circles and other planes", "statement": "Outside the documented or coded parallel tolerance, the intersection predicates hold exactly if a common point exists and the reported parameter, point, line or points are exactly the common ones; ClosestPoint gives a nearest point of the plane; Contains holds exactly when every point of the object is within the threshold; ExamineSide, AreOnSameSide, SetEquals, Equals and the projections of objects mean what their names say. Findings: three planes with two distinct parallel ones can be reported as meeting; ClosestPoint(LineSegment) picks the farther end of a nearly parallel segment; opposite normals are not IsParallel; DihedralAngle returns a cosine.", "quantifier": "all planes and primitives", "why_tests_cant": "a sample of inputs leaves the rest of an unbounded (or 2^32..2^96 sized) input space unchecked", "anchors": ["src/Geometry/Plane.cpp:Plane::IntersectLinePlane,Plane::Intersects,Plane::ClosestPoint,Plane::Contains", "src/Geometry/Plane.cpp:Plane::ExamineSide,Plane::SetEquals,Plane::Project"]}
{"id": "C42", "title": "Clipping", "statement": "Plane::Clip keeps exactly the part of the segment, line or triangle in the positive half-space. Findings: a segment that starts on the plane and leaves it upwards is discarded whole; a line inside the plane is cut to a ray.", "quantifier": "all planes, segments, lines and triangles (edges between 1e-6 and 1e4 long)", "why_tests_cant": "a sample of inputs leaves the rest of an unbounded (or 2^32..2^96 sized) input space unchecked", "anchors": ["src/Geometry/Plane.cpp:Plane::Clip"]}
{"id": "C43", "title": "Closest points between lines, rays and segments", "statement": "ClosestPoint/Distance for every pair among point, Line, Ray, LineSegment return parameters in range and a global minimum of the distance.", "quantifier": "all non-degenerate primitives, including parallel ones", "why_tests_cant": "a sample of inputs leaves the rest of an unbounded (or 2^32..2^96 sized) input space unchecked", "anchors": ["src/Geometry/Line.cpp:Line::ClosestPoint,Line::ClosestPointLineLine", "src/Geometry/Ray.cpp:Ray::ClosestPoint", "src/Geometry/LineSegment.cpp:LineSegment::ClosestPoint"]}
{"id": "C44", "title": "Sphere queries", "statement": "Sphere::Contains of a segment, triangle, polygon, box, ball or capsule is true exactly when every point of it is in the ball; line, ray and segment hits are exactly the boundary points in range, with position, normal and parameters; Distance, MaxDistance, ClosestPoint, plane intersection circles, extreme points, axis projections, transforms, minimal boxes, volume and area are those of the ball. Findings: a ray from inside reports two hits, the reported segment hit can lie outside the segment, MaximalContainedAABB is half the possible size, ProjectToAxis needs a unit axis. Diameter is the largest distance between two points of the ball and IsDegenerate holds exactly for balls with at most one point.", "quantifier": "all spheres and primitives", "why_tests_cant": "a sample of inputs leaves the rest of an unbounded (or 2^32..2^96 sized) input space unchecked", "anchors": ["src/Geometry/Sphere.cpp:Sphere::Contains,Sphere::IntersectLine,Sphere::Distance,Sphere::MaxDistance,Sphere::ClosestPoint,Sphere::Transform,Sphere::MaximalContainedAABB", "src/Geometry/Sphere.h:100"]}
{"id": "C45", "title": "Growing a sphere", "statement": "Sphere::Enclose of points, segments, triangles, boxes, spheres and capsules yields a sphere containing the shape and everything contained before, along every history of calls; the points are taken farthest first; FastEnclosingSphere contains its points; ExtendRadiusToContain contains both and is minimal. Findings: spheres of radius below 1 can shrink and lose points, enclosing the centre of a tiny sphere divides zero by zero (so FastEnclosingSphere of a square facing x is NaN), and Enclose(Sphere) of a nearly concentric larger sphere does not enclose it.", "quantifier": "all spheres, points and histories", "why_tests_cant": "Unbounded histories of Enclose calls.", "anchors": ["src/Geometry/Sphere.cpp:Sphere::Enclose,Sphere::ExtendRadiusToContain,Sphere::FastEnclosingSphere,Sphere_Enclose"]}
{"id": "C46", "title": "Barycentric coordinates", "statement": "Triangle::Point(BarycentricUVW(p)) = p for p in the triangle's plane; coordinates sum to one, and Contains is true for every convex combination.", "quantifier": "all non-degenerate triangles and points", "why_tests_cant": "a sample of inputs leaves the rest of an unbounded (or 2^32..2^96 sized) input space unchecked", "anchors": ["src/Geometry/Triangle.cpp:Triangle::BarycentricUVW,Triangle::Point,Triangle::Contains"]}
{"id": "C47", "title": "Closest point on a triangle", "statement": "Triangle::ClosestPoint(p) is in the triangle and no other triangle point is nearer.", "quantifier": "all non-degenerate triangles and points", "why_tests_cant": "a sample of inputs leaves the rest of an unbounded (or 2^32..2^96 sized) input space unchecked", "anchors": ["src/Geometry/Triangle.cpp:Triangle::ClosestPoint"]}
{"id": "C48", "title": "Line/triangle intersection", "statement": "If IntersectLineTri reports a finite t then the line point at t equals the triangle point at (u,v); if the line hits the triangle (outside the tolerance) it is reported.", "quantifier": "all lines and triangles", "why_tests_cant": "a sample of inputs leaves the rest of an unbounded (or 2^32..2^96 sized) input space unchecked", "anchors": ["src/Geometry/Triangle.cpp:Triangle::IntersectLineTri"]}
{"id": "C49", "title": "Triangle/box separating axes", "statement": "Triangle::Intersects(AABB) returning false means the triangle and the open box have no common point.", "quantifier": "all triangles and boxes", "why_tests_cant": "a sample of inputs leaves the rest of an unbounded (or 2^32..2^96 sized) input space unchecked", "anchors": ["src/Geometry/Triangle.cpp:Triangle::Intersects(AABB)"]}
{"id": "C50", "title": "Capsule queries", "statement": "Capsule::Contains(p) holds exactly if p is within r of the axis; distances and extreme points agree with geometry; its bounding boxes contain it.", "quantifier": "all capsules and points", "why_tests_cant": "a sample of inputs leaves the rest of an unbounded (or 2^32..2^96 sized) input space unchecked", "anchors": ["src/Geometry/Capsule.cpp:Capsule::Contains,Capsule::Distance,Capsule::ExtremePoint,Capsule::MinimalEnclosingAABB"]}
{"id": "C51", "title": "Oriented boxes", "statement": "OBB::Contains (point, vertices, segment, triangle, boxes), ClosestPoint, Distance, ExtremePoint, ProjectToAxis, CornerPoint, plane/sphere/ray/line/segment/triangle tests, MinimalEnclosingAABB, LocalToWorld/WorldToLocal, Volume agree with the box spanned by the axes; Enclose keeps the old box and contains the new point; Transform and Scale give the image when the map preserves the frame; FixedOrientationEnclosingOBB is the smallest box with the given axes around the points; AreEdgesCompatibleForOBB, AreCompatibleOpposingEdges and IsVertexAntipodalToEdge decide their geometric conditions. Findings: edge and face index conventions disagree, flat boxes and non-uniform scaling transform wrongly, SortedArrayContains misses elements and can loop for ever.", "quantifier": "all OBBs with orthonormal axes, all points, shapes, transforms and point lists", "why_tests_cant": "a sample of inputs leaves the rest of an unbounded (or 2^32..2^96 sized) input space unchecked", "anchors": ["src/Geometry/OBB.cpp:OBB::Contains,OBB::ClosestPoint,OBB::ExtremePoint,OBB::Enclose,OBB::FacePoint", "src/Geometry/OBB.cpp:OBB::FixedOrientationEnclosingOBB,AreEdgesCompatibleForOBB,AreCompatibleOpposingEdges,IsVertexAntipodalToEdge,SortedArrayContains"]}
{"id": "C52", "title": "OBB/OBB separating axes", "statement": "OBB::Intersects(OBB) returning false means the boxes share no point, for any non-negative epsilon.", "quantifier": "all pairs of OBBs", "why_tests_cant": "a sample of inputs leaves the rest of an unbounded (or 2^32..2^96 sized) input space unchecked", "anchors": ["src/Geometry/OBB.cpp:OBB::Intersects(OBB)"]}
{"id": "C53", "title": "Kd-tree keeps every object", "statement": "After AddObjects/Build every object is in at least one leaf, and no leaf contains anything else.", "quantifier": "all object sets of any size, all coordinates", "why_tests_cant": "Unbounded input sizes and tree shapes.", "anchors": ["src/Geometry/KDTree.inl:KdTree::Build,KdTree::SplitLeaf"]}
{"id": "C54", "title": "Kd-tree box query is complete", "statement": "AABBQuery visits leaves containing every object whose bounding box overlaps the query box, on any built tree.", "quantifier": "all object sets, all query boxes", "why_tests_cant": "Unbounded input sizes and tree shapes.", "anchors": ["src/Geometry/KDTree.inl:KdTree::AABBQuery"]}
{"id": "C55", "title": "Kd-tree shape bounds", "statement": "TreeHeight never exceeds the documented maximum, the fixed-size traversal stack never overflows, NumNodes = NumLeaves + NumInnerNodes.", "quantifier": "all object sets", "why_tests_cant": "The stack overflow would be memory corruption on some adversarial input.", "anchors": ["src/Geometry/KDTree.inl:KdTree::SplitLeaf,KdTree::AABBQuery,KdTree::NumLeaves,KdTree::TreeHeight"]}
{"id": "C56", "title": "Kd-tree ray query", "statement": "RayQuery visits every leaf whose cell the ray crosses until the callback stops it (finding candidates: boundary and axis-parallel rays).", "quantifier": "all trees and rays", "why_tests_cant": "Unbounded tree shapes; the bugs are at measure-zero coincidences that random tests miss.", "anchors": ["src/Geometry/KDTree.inl:KdTree::RayQuery"]}
{"id": "C57", "title": "Quadtree never loses or duplicates objects", "statement": "After any history of Clear, Add and Remove (Clear first, no object added while stored, no object of a cleared tree removed) the stored objects are exactly the added minus the removed ones, each stored once in a node below the root, the node recorded for each object is the one holding it, no call makes an invalid access, and with exact arithmetic every call ends.", "quantifier": "all histories, all object rectangles, all scalar types", "why_tests_cant": "Unbounded histories with root growth and splits.", "anchors": ["src/Geometry/QuadTree.inl:QuadTree::Add,QuadTree::Remove,QuadTree::SplitLeaf,QuadTree::GrowRootTopLeft"]}
{"id": "C58", "title": "Quadtree box query is complete", "statement": "AABBQuery calls back for the node of every stored object meeting the query rectangle, for no node twice, for nonempty nodes of the tree only, in a fixed order until the callback stops it, after any history.", "quantifier": "all histories and queries (exact arithmetic; binary32 while the root does not grow)", "why_tests_cant": "Unbounded histories.", "anchors": ["src/Geometry/QuadTree.inl:QuadTree::AABBQuery"]}
{"id": "C59", "title": "Quadtree colliding pairs are complete", "statement": "CollidingPairsQuery reports only distinct stored intersecting objects, no pair twice in either order, and every pair of stored objects that overlap with positive area and both meet the query, after any history.", "quantifier": "all histories and queries (exact arithmetic; binary32 while the root does not grow)", "why_tests_cant": "Unbounded histories.", "anchors": ["src/Geometry/QuadTree.inl:QuadTree::CollidingPairsQuery"]}
{"id": "C60", "title": "Quadtree node accounting", "statement": "NumNodes = NumLeaves + NumInnerNodes, NumLeaves = 3 NumInnerNodes + 1, NumObjects is the number of stored objects, TreeHeight is the length of the longest path, the four children of a node tile it and point back to it, objects below a child lie in its quadrant, and the root covers the bounding box, which covers every stored object; after any history.", "quantifier": "all histories", "why_tests_cant": "Unbounded histories.", "anchors": ["src/Geometry/QuadTree.inl:QuadTree::NumNodes,QuadTree::NumLeaves,QuadTree::NumInnerNodes,QuadTree::TreeHeight"]}
{"id": "C61", "title": "Mini-float values, truncation and clamping", "statement": "For any layout and bias, decoding a zero or normal pattern gives the value of the pattern; encoding a float whose exponent fits gives the largest magnitude of the layout not exceeding it; an unsigned layout encodes every negative normal number or infinity as zero, but not negative denormals.", "quantifier": "every layout (1..8 exponent bits, 1..23 mantissa bits, any bias) and every float bit pattern", "why_tests_cant": "Generic over layouts and 2^32 inputs; the wrong cases are denormals that no test exercises.", "anchors": ["src/Math/MiniFloat.cpp:Float32ToMiniFloat,MiniFloatToFloat32"]}
{"id": "C62", "title": "Interpolation helpers", "statement": "Lerp and InvLerp are inverse to each other; Ramp maps into [0,1], is monotone and agrees with InvLerp inside the range; LerpMod moves along the shorter way round the circle; Sign(x) times abs(x) is x; EqualRel is reflexive, symmetric and agrees with RelativeError.", "quantifier": "all real arguments", "why_tests_cant": "The laws relate arbitrary pairs of inputs; the wrap-around direction of LerpMod depends on an unbounded number of revolutions.", "anchors": ["src/Math/MathFunc.cpp:Lerp,InvLerp,LerpMod,Ramp,Sign,SignOrZero", "src/Math/MathOps.cpp:EqualRel,RelativeError"]}
{"id": "C63", "title": "ULP comparison", "statement": "For any two float bit patterns EqualUlps decides whether their positions in the ordered list of floats differ by at most maxUlps, and that position is ordered as the values are (finding: the int subtraction overflows for floats of opposite sign with ordinals 2^31 or more apart, e.g. 2.0 and -2.0).", "quantifier": "all pairs of 32-bit patterns, all maxUlps", "why_tests_cant": "2^64 pairs of patterns; the overflow is undefined behaviour that tests do not observe.", "anchors": ["src/Math/MathOps.cpp:EqualUlps"]}
{"id": "C64", "title": "Easing curves", "statement": "Every SmoothStart*/SmoothStop*/SmoothStep*/SharpStep maps 0 to 0, 1 to 1, stays within [0,1] and never decreases on [0,1]; SmoothStopN(t)=1-SmoothStartN(1-t) and the steps are point-symmetric about 1/2.", "quantifier": "all t in [0,1]", "why_tests_cant": "Monotonicity over a continuum.", "anchors": ["src/Math/Interpolate.h"]}
{"id": "C65", "title": "Translate and scale operators", "statement": "Products of TranslateOp/ScaleOp with each other and with float3x3/float3x4/float4x4 equal the products of the corresponding full matrices (float4x4 translations need the last row 0,0,0,1), and scaling or rotating about a point c maps x to c + M(x-c) (a finding: ScaleAlongAxis scales the coordinate axes by axis*factor).", "quantifier": "all matrices, vectors and points over the reals", "why_tests_cant": "Equality of products over all real matrices.", "anchors": ["src/Math/TransformOps.cpp:49-282", "src/Math/float3x4.cpp:340-353"]}
{"id": "C66", "title": "Projection matrices", "statement": "For 0<n<f and positive h, v, each of the eight D3D/OpenGL orthographic/perspective LH/RH projections maps exactly the view volume into the clip cube with w>0, scales the near rectangle to [-1,1]^2, the near plane to the lowest z and the far plane to 1.", "quantifier": "all points and all planes/extents", "why_tests_cant": "An if-and-only-if over all points of space.", "anchors": ["src/Math/float4x4.cpp:452-572"]}
{"id": "C67", "title": "Decomposition into translation, rotation and scale", "statement": "Decompose followed by FromTRS restores the matrix; decomposing FromTRS(t,r,s) with positive s returns t, r, s (a finding: RemoveScale normalises rows, not columns).", "quantifier": "all affine matrices with non-zero columns; all orthonormal r", "why_tests_cant": "Exact round trips over all real matrices.", "anchors": ["src/Math/float3x4.cpp:198-201", "src/Math/float3x4.cpp:1652-1670", "src/Math/float3x3.cpp:1094-1113", "src/Math/float3x3.cpp:1485-1502"]}
{"id": "C68", "title": "Mirror, projection and LookAt matrices", "statement": "The mirror matrix of a plane is an isometric involution exchanging the sides; the orthographic projection sends each point to the nearest point of the plane; LookAt is a rotation taking the local forward to the target direction and the local up into the half plane of the world up.", "quantifier": "all planes with unit normals, all points, all non-degenerate frames", "why_tests_cant": "Isometry and optimality over all points.", "anchors": ["src/Math/Matrix.inl:892-926", "src/Math/float3x4.cpp:396-408", "src/Math/float3x3.cpp:608-669", "src/Math/float3x4.cpp:795-802"]}
{"id": "C69", "title": "float3 reductions and predicates", "statement": "MinElement/MaxElement and their indices, Clamp, Lerp, IsPerpendicular, IsNormalized, IsZero, AreOrthogonal, AreOrthonormal and Equals have their stated meaning; order-only facts hold for every non-NaN float.", "quantifier": "all vectors (order facts: all non-NaN binary32 vectors)", "why_tests_cant": "Statements over all vectors and tolerances.", "anchors": ["src/Math/float3.cpp:184-208", "src/Math/float3.cpp:324-455", "src/Math/float3.cpp:681-756", "src/Math/float3.cpp:840-845"]}
{"id": "C70", "title": "float2 algebra", "statement": "Length, Distance (a metric), Normalize, ScaleToLength, Perp, PerpDot, the quarter turns, OrientedCCW, ProjectTo, Decompose, Reflect, Lerp and the element functions of float2 have their geometric meaning (findings: Orthogonalize divides by the length instead of its square; Refract keeps the wrong normal part).", "quantifier": "all float2 over the reals", "why_tests_cant": "Identities and inequalities over all vectors.", "anchors": ["src/Math/float2.cpp:75-187", "src/Math/float2.cpp:259-499"]}
{"id": "C71", "title": "AABB2D", "statement": "Contains, Intersects, Enclose, DistanceSq, PosInside/ToNormalizedLocalSpace, translation and TransformAsAABB of AABB2D agree with the set of points of the box; enclosures are smallest.", "quantifier": "all boxes, points and affine maps over the reals", "why_tests_cant": "Set-level statements over all points of a box.", "anchors": ["src/Geometry/AABB2D.h:50-228"]}
{"id": "C72", "title": "Extracting Euler angles", "statement": "For each of the twelve orders, ToEuler* of a rotation matrix returns angles from which FromEuler* rebuilds the matrix (gimbal lock included), and recovers angles given in their usual ranges.", "quantifier": "all rotation matrices, all angles in range", "why_tests_cant": "gimbal-lock and quadrant cases are measure-zero or boundary sets of a continuous input space", "anchors": ["src/Math/Matrix.inl:ExtractEulerXYZ,ExtractEulerXYX", "src/Math/float3x3.cpp:float3x3::ToEulerXYZ"]}
{"id": "C73", "title": "Angles, spherical and polar coordinates", "statement": "AngleBetween is the angle in [0,pi] with the right cosine; converting to spherical or polar coordinates and back gives the vector, with the angles in range and the radius equal to the length.", "quantifier": "all vectors above the documented thresholds, all angles in range", "why_tests_cant": "continuous input space with quadrant boundaries", "anchors": ["src/Math/float3.cpp:float3::ToSphericalCoordinates,float3::SetFromSphericalCoordinates,float3::AngleBetween", "src/Math/float2.cpp:float2::ToPolarCoordinates,float2::SetFromPolarCoordinates,float2::AngleBetween"]}
{"id": "C74", "title": "Interpolating orientations", "statement": "Lerp and Slerp of unit quaternions return unit quaternions on the shorter arc between the orientations, with the right end points; SlerpVector(Abs) does the same for directions; AngleBetween/AxisFromTo give the rotation leading from one orientation to another.", "quantifier": "all unit quaternions, all t in [0,1]; all unit vectors not (nearly) parallel", "why_tests_cant": "continuous input space; sign and threshold cases", "anchors": ["src/Math/Quat.cpp:Quat::Lerp,Quat::Slerp,Quat::SlerpVector,Quat::SlerpVectorAbs,Quat::AngleBetween,Quat::AxisFromTo"]}
{"id": "C75", "title": "Lines, rays and segments: conversions, transforms, projections, containment", "statement": "Transforming or translating a Line, Ray or LineSegment transforms its point set; conversions keep or cut the point set as documented; ExtremePoint and ProjectToAxis give the extreme values of the point set on an axis (Ray::ProjectToAxis does not for rays pointing against the axis: finding); Contains accepts exactly the points (segments) whose squared distance is within the threshold (finding: documented as a distance) and Line::Contains(Ray) rejects reversed rays (finding); Equals holds for every positive tolerance exactly for equal objects.", "quantifier": "all lines and rays with unit direction, all segments, all matrices, all axes", "why_tests_cant": "projection and containment range over unboundedly many points; the wrong threshold constant in Ray::ProjectToAxis only shows for directions a test did not pick", "anchors": ["src/Geometry/Line.cpp:Line::Contains,Line::Equals,Line::Transform,Line::ProjectToAxis", "src/Geometry/Ray.cpp:Ray::ProjectToAxis,Ray::Contains,Ray::Transform", "src/Geometry/LineSegment.cpp:LineSegment::ProjectToAxis,LineSegment::Contains,LineSegment::ExtremePoint"]}
{"id": "C76", "title": "Circles", "statement": "Circle::GetPoint lies on the circle and every point of it is reached; ClosestPointToDisc/ClosestPointToEdge return the nearest point of the disc/edge; ExtremePoint is furthest along the direction; Translate and Transform by a similarity map the circle to its image. Findings: IntersectsDisc(Line/Ray/LineSegment) is inverted, the two GetPoint overloads disagree, and directions or points too close to the axis give results off the circle.", "quantifier": "all circles with a unit normal, all points and directions outside the stated tolerance", "why_tests_cant": "a sample of inputs leaves the rest of an unbounded input space unchecked", "anchors": ["src/Geometry/Circle.cpp:Circle::GetPoint,Circle::ClosestPointToDisc,Circle::ClosestPointToEdge,Circle::ExtremePoint,Circle::IntersectsDisc"]}
{"id": "C78", "title": "Spheres through points and smallest enclosing spheres", "statement": "FitThroughPoints of three or four points passes through them (smallest such sphere, respectively the only one) and fails exactly when the triangle's doubled area squared is below 0.005, respectively the squared volume below 0.001. OptimalEnclosingSphere of up to four points contains them all and is within a stated tolerance of the smallest sphere that does (outside the near-degenerate box fallback); of five points it contains all but the one it names. Finding: for an array of six points the result leaves the first point outside.", "quantifier": "all points; arrays of any length", "why_tests_cant": "\"Smallest\" quantifies over all spheres; degenerate and near-degenerate inputs take separate branches", "anchors": ["src/Geometry/Sphere.cpp:Sphere::FitThroughPoints,Sphere::OptimalEnclosingSphere,FitSphereThroughPoints"]}
{"id": "C79", "title": "Sphere triangulation and sampling", "statement": "Sphere::Triangulate with room for n >= 24 vertices writes 3k vertices with 3k <= n < 3k + 9, all on the sphere, all triangles wound the same way, and the triangles seen from the centre leave no gap in any direction; RandomPointInside and RandomPointOnSurface lie in the ball, on the surface, whatever the random generator returns.", "quantifier": "all spheres of radius at least 1/500, all n, all generator outputs", "why_tests_cant": "Unbounded number of subdivisions; every direction and every random stream", "anchors": ["src/Geometry/Sphere.cpp:Sphere::Triangulate,Sphere::RandomPointInside,Sphere::RandomPointOnSurface"]}
{"id": "C80", "title": "Triangle measures, planes, bounds, transforms and sampling", "statement": "Centroid, Area, Perimeter, Edge, Vertex, PlaneCCW/CW, NormalCCW/CW, ExtremePoint, BoundingAABB, SignedArea and Transform agree with the geometry of the triangle; RandomPointInside reaches exactly the triangle and RandomPointOnEdge walks the outline by arc length.", "quantifier": "all (for planes and outlines: non-degenerate) triangles, directions, affine maps and random numbers", "why_tests_cant": "continuous inputs: a sample of triangles leaves the rest unchecked", "anchors": ["src/Geometry/Triangle.cpp:Triangle::Centroid,Area,Perimeter,PlaneCCW,NormalCCW,ExtremePoint,BoundingAABB,SignedArea,Transform,RandomPointInside,RandomPointOnEdge"]}
{"id": "C81", "title": "Triangle/triangle intersection", "statement": "Triangle::Intersects(Triangle, outLine) returns true exactly if the triangles share a point and outLine is then exactly the set of common points, when the planes are not nearly parallel and vertex b of neither lies in the other's plane between a and c; coplanar triangles in general position are also decided exactly up to the 1e-3 barycentric tolerance. Findings: a vertex b in the other plane makes it miss the intersection; in the coplanar contained case outLine is left unwritten.", "quantifier": "all non-degenerate triangle pairs", "why_tests_cant": "the branches depend on sign patterns of six real distances; random tests hit the boundary patterns with probability zero", "anchors": ["src/Geometry/Triangle.cpp:Triangle::Intersects(Triangle),FindIntersectingLineSegments", "src/Geometry/LineSegment2D.cpp:LineSegment2DLineSegment2DIntersect"]}
{"id": "C82", "title": "Separating axes (SAT.h)", "statement": "SATIntersect(a, b) for an AABB or Triangle paired with an AABB or Triangle returns true exactly if the two closed shapes have a common point.", "quantifier": "all boxes with positive extents and all non-degenerate triangles", "why_tests_cant": "separation is decided by a finite set of axes for infinitely many shapes; a sample of shapes cannot show that set suffices", "anchors": ["src/Geometry/SAT.h:SATIntersect", "src/Geometry/AABB.cpp:UniqueFaceNormals,ProjectToAxis", "src/Geometry/Triangle.cpp:UniqueFaceNormals,UniqueEdgeDirections,ProjectToAxis"]}
{"id": "C83", "title": "2D convex hull: input vertices, everything covered, exact for separated points, convex counter-clockwise output, containment test", "statement": "For every non-empty list of points float2::ConvexHullInPlace returns a non-empty list of input points such that every input point is within 2e-3 of the convex hull of the result (the code merges vertices closer than 1e-3). If distinct input points are more than 1e-3 apart then every input point is in the hull of the result; and unless all points lie on one line the result is a strictly convex polygon of at least 3 distinct vertices in counter-clockwise order with no input point to the right of any edge. Points on one line give at most two vertices. float2::ConvexHull gives the same list. A counter-clockwise strictly convex polygon is exactly the intersection of its edges' left half planes; float2::ConvexHullContains is true exactly when PerpDot2D of every edge with the point exceeds -1e-5 (template version: at least -1e-6 and three or more vertices), so it accepts every point of the polygon. With fewer than three vertices ConvexHullContains accepts points far outside.", "quantifier": "all finite lists of points over exact reals, no bound on the number of points; all query points", "why_tests_cant": "The hull depends on arbitrary many points and their sort order; tests sample few random sets and cannot show that no pop drops a needed vertex or keeps a reflex one for any set.", "anchors": ["src/Math/float2.inl:49-159", "src/Math/float2.cpp:501-535"]}
{"id": "C84", "title": "Frustum: planes, corners, extents, rays and transforms", "statement": "For a frustum with orthonormal front and up, 0 < near < far and field-of-view angles in (0, pi) (or positive orthographic sizes), both handednesses: the closed region given by view coordinates is exactly the intersection of the six outward planes of GetPlane/GetPlanes/ToPBVolume, whose normals are unit; CornerPoint and GetCornerPoints give exactly its eight corners; the region is their convex hull; the 12 edges join corners; ExtremePoint and ProjectToAxis are attained at corners and bound the region; MinimalEnclosingAABB and the orthographic MinimalEnclosingOBB enclose it tightly; NearPlanePos, FarPlanePos, PointInside, CenterPoint and UnProject rays lie as documented; ClosestPoint of an orthographic frustum is nearest; face normals and edge directions are those of the planes and edges; Translate and similarity Transforms map the region to its image.", "quantifier": "all properly set up frustums over exact reals, all points and directions, both handednesses, perspective and orthographic", "why_tests_cant": "The statements hold for a continuum of cameras and points; a wrong plane sign or handedness shows only in some configurations and tests check a few sampled ones.", "anchors": ["src/Geometry/Frustum.cpp:164-300", "src/Geometry/Frustum.cpp:464-503", "src/Geometry/Frustum.cpp:639-1040"]}
{"id": "C85", "title": "Frustum: cached matrices, projection and containment", "statement": "After any sequence of setter calls the cached world, projection and view-projection matrices are those that would be computed afresh; the world matrix is a rotation with translation that maps view coordinates to the world, ComputeViewMatrix is its inverse, and SetWorldMatrix reads back any rotation; Project spreads each cross section over [-1,1]x[-1,1] with depth growing from the near value to 1, is inverse to NearPlanePos/FarPlanePos/PointInside, and the region is exactly what projects into the viewport volume; Contains accepts every point of the region and, in front of the eye, exactly the region widened by its 1e-3 tolerances; corner-based Contains accepts exactly if all corners are accepted. The setters with an aspect ratio give that AspectRatio and it is the ratio of the near rectangle for perspective frustums; ViewportToScreenSpace and ScreenToViewportSpace are inverse. Refuted: after Translate and Transform the caches are stale and Contains answers for the old place; Contains accepts points far behind the eye and beyond the far plane and the eye itself for wide depth ranges; AspectRatio of an orthographic frustum.", "quantifier": "all setter sequences; all properly set up frustums and points over exact reals", "why_tests_cant": "Cache coherence is over unbounded call sequences, and containment is over all points and depth ratios; tests use a few cameras where the acceptance behind the eye does not show.", "anchors": ["src/Geometry/Frustum.cpp:57-183", "src/Geometry/Frustum.cpp:283-388", "src/Geometry/Frustum.cpp:444-637"]}
{"id": "C86", "title": "Plane-bounded volumes: containment, culling tests, intersection", "statement": "PBVolume::Contains is true exactly for points above none of the planes; SetIntersection contains exactly the common points and is symmetric; InsideOrIntersects of an AABB or a Sphere returns TestOutside exactly if some plane has the whole body on or above it, TestInside exactly if the whole body is strictly below every plane, TestNotContained otherwise; for the planes of a Frustum a body reported outside has no point strictly inside the frustum and one reported inside lies in it.", "quantifier": "all lists of planes (any number; unit normals for spheres), all boxes with min <= max, spheres with r >= 0, over exact reals", "why_tests_cant": "The number of planes is a template parameter and the bodies range over a continuum; a wrong corner choice shows only for some normal signs.", "anchors": ["src/Geometry/PBVolume.h:57-126", "src/Geometry/PBVolume.h:275-284", "src/Geometry/Frustum.cpp:1029-1040"]}
{"id": "C87", "title": "GJK intersection test", "statement": "For two convex bodies given by their support functions (any point, extreme point in a direction), GJKIntersect: when the search ends with a separating direction (false) the bodies have no common point; when it ends with true the bodies have points at most 0.043 apart, and at most 0.001 apart if the two starting points are at least one unit apart; bodies farther apart than 0.043 are never reported, and meeting bodies are reported unless the 50 iterations run out. Line segments, triangles, AABBs, OBBs, spheres, capsules and frustums supply such support functions, so Frustum::Intersects(LineSegment/AABB/OBB/Triangle/Sphere/Capsule/Frustum) and Capsule::Intersects(AABB/OBB), including the translation to the origin, inherit this. Found wrong: small bodies 0.029 apart are reported as intersecting because the first test compares an unscaled triple product with 1e-7.", "quantifier": "all pairs of bodies over the reals with nonnegative radii and valid frustums, all runs of the loop", "why_tests_cant": "the loop visits simplices in an order depending on both shapes; tests sample pairs, and a wrong region test in the tetrahedron case only shows up for rare configurations", "anchors": ["src/Algorithm/GJK.h:32-79", "src/Algorithm/GJK.cpp:35-356", "src/Geometry/Frustum.cpp:1054-1097", "src/Geometry/Capsule.cpp:405-415"]}
{"id": "C88", "title": "Two-dimensional GJK test", "statement": "For two plane bodies given by support functions, GJKIntersect2D: when the search ends with a separating direction (false) the bodies have no common point; when it ends with true they have a common point or their two starting points are less than 1/3000 apart. Polygons (Polygon2DRef), boxes and the other shapes supply such support functions, so for polygons given by any nonempty vertex list the answers are about their convex hulls. Found wrong: two single points 1/4000 apart are reported as intersecting.", "quantifier": "all pairs of bodies over the reals, all vertex lists of any length, all runs of the loop", "why_tests_cant": "the loop visits simplices in an order depending on both shapes; tests sample pairs of shapes", "anchors": ["src/Algorithm/GJK2D.cpp", "src/Algorithm/GJK2D.h", "src/Geometry/Polygon2DRef.h"]}
{"id": "C89", "title": "Two-dimensional separating axis test", "statement": "For strictly convex counter-clockwise polygons with at least three vertices, SATCollide2D returns true exactly when the polygons have a common point; when false one of the edge normals separates them. SATCollide2D_CollisionPoint (edges longer than 1/1000) agrees with it, and reports the smallest translation along an edge normal that separates the polygons, its unit normal and the deepest vertex. HasCcwWindingOrder accepts exactly the lists with a left turn (up to its tolerance) at every corner. Found wrong: pentagrams and small clockwise triangles are accepted as counter-clockwise and then collide wrongly; edges not longer than 1/1000 make the collision-point variant wrong; two single points always collide.", "quantifier": "all pairs of polygons with any number of vertices, over the reals", "why_tests_cant": "exactness needs Helly's theorem: tests only sample pairs of polygons", "anchors": ["src/Algorithm/SAT.cpp", "src/Algorithm/SAT.h"]}
{"id": "C90", "title": "Plane, basis, planarity and convexity of polygons", "statement": "For a polygon lying in a plane with some three vertices of triangle area above 5e-5: PlaneCCW is a plane through all vertices with unit normal, facing the side from which a convex counter-clockwise polygon is counter-clockwise; BasisU and BasisV are an orthonormal frame of that plane along the first edge; IsPlanar(eps) accepts exactly when every vertex is within the tolerance of the plane of the first three; IsConvex accepts exactly the vertex cycles with no right turn; EdgeNormal and EdgePlane of a convex polygon face outwards. Refuted: the normal of a counter-clockwise polygon starting at a concave corner is flipped; IsPlanar accepts every polygon whose first three vertices are collinear; IsConvex accepts a pentagram.", "quantifier": "all vertex lists of any length, all positions of the plane in space, all edges", "why_tests_cant": "The number of vertices and the plane are unbounded and the degenerate starts are rare.", "anchors": ["src/Geometry/Polygon.cpp:65", "src/Geometry/Polygon.cpp:113", "src/Geometry/Polygon.cpp:186", "src/Geometry/Polygon.cpp:204", "src/Geometry/Polygon.cpp:250", "src/Geometry/Polygon.cpp:777"]}
{"id": "C91", "title": "Point containment in polygons", "statement": "Contains(point, thicknessSq) on a plane polygon: a contained point is within the thickness of the plane and within 2e-4 of the convex hull of the vertices (in the hull when no vertex is within 1e-4 of the test line); for a convex polygon every point more than 2e-4 inside all edges and within the thickness is contained; for an arbitrary, possibly self-intersecting polygon and a point clear of the tolerances the answer is the even-odd rule over the fan of triangles from the first vertex. Refuted: polygons smaller than 1e-4 contain nothing; Contains(Polygon, thickness) uses the thickness as a squared thickness.", "quantifier": "all plane polygons of any length, all points of space, all thicknesses", "why_tests_cant": "Ray-crossing parity depends on every edge at once; wrong counts occur only for vertices near the test ray.", "anchors": ["src/Geometry/Polygon.cpp:347", "src/Geometry/Polygon.cpp:339"]}
{"id": "C92", "title": "Area, perimeter, boundary points and extremes of polygons", "statement": "Area is the absolute shoelace sum, which equals the sum of the signed fan triangle areas (for convex polygons the sum of their areas); Perimeter is the length of the boundary; PointOnEdge(t) is the boundary point at the fraction t of the boundary length from the first vertex; ExtremePoint, ProjectToAxis and MinimalEnclosingAABB are those of the convex hull of the vertices; Intersects(Plane) is false only if the hull lies more than 1e-4 on one side and true only if some hull point is within 1e-4. Refuted: Centroid is the vertex mean and changes when a vertex is added inside an edge. Translate and Transform map the convex hull of the vertices onto that of the images and keep the vertex order.", "quantifier": "all plane polygons of any length, all parameters, directions and planes", "why_tests_cant": "Sums over cycles of unbounded length; needs a telescoping argument.", "anchors": ["src/Geometry/Polygon.cpp:542", "src/Geometry/Polygon.cpp:792", "src/Geometry/Polygon.cpp:826", "src/Geometry/Polygon.cpp:844", "src/Geometry/Polygon.cpp:853", "src/Geometry/Polygon.cpp:863", "src/Geometry/Polygon.cpp:1063", "src/Geometry/Polygon.cpp:304"]}
{"id": "C93", "title": "Polygon queries against lines, rays and line segments", "statement": "Polygon::Intersects(Line/Ray/LineSegment) is sound: a hit is reported only if the line, ray or segment passes within the documented tolerance of the polygon's hull. It is complete for convex counter-clockwise polygons: a line, ray or segment that is not nearly parallel to the plane and crosses it at a point more than 1/5000 inside every edge is reported. Polygon::Contains(LineSegment, thickness) implies that both end points are within the thickness of the plane and that every point of the segment projects to within 1/5000 of the hull, and holds for segments with both ends 1/1000 inside. For a segment lying in the plane the answer can be wrong because edges are mapped to 2D without subtracting the first vertex. Contains2D should be true only for segments whose ends are both in the polygon (refuted: it compares local with world coordinates).", "quantifier": "for every orthonormal frame, every convex counter-clockwise polygon in it and every line, ray or segment", "why_tests_cant": "Polygons, frames and lines range over the reals; tests check a handful of boxes' faces with random lines.", "anchors": ["src/Geometry/Polygon.cpp:414", "src/Geometry/Polygon.cpp:466", "src/Geometry/Polygon.cpp:491", "src/Geometry/Polygon.cpp:500", "src/Geometry/Polygon.cpp:521", "src/Geometry/Polygon.cpp:441"]}
{"id": "C94", "title": "Polygon::Triangulate covers the polygon, ClosestPoint is nearest", "statement": "Polygon::Triangulate returns at most n-2 triangles whose corners are vertices of the polygon.  For a convex counter-clockwise polygon it returns exactly the n-2 triangles of the fan from the first vertex, all positively oriented, whose union is the polygon; ClosestPoint then returns the nearest point of the polygon and Distance its distance.  For any polygon without nearly collinear triples of vertices every clipped ear is oriented like the reported normal and, if n-2 triangles come out, their signed areas add up to the signed area of the polygon.  A counter-clockwise polygon that starts at a concave corner is triangulated wrongly.", "quantifier": "for every polygon size n, every frame and every position of the vertices", "why_tests_cant": "The ear clipping loop runs over arbitrarily many vertices with wrap-around indices; the project's tests triangulate only faces of boxes.", "anchors": ["src/Geometry/Polygon.cpp:968", "src/Geometry/Polygon.cpp:941", "src/Geometry/Polygon.cpp:918", "src/Geometry/Polygon.cpp:727", "src/Geometry/Polygon.cpp:771"]}
{"id": "C95", "title": "Polyhedron face lists: closedness, edges, validity, orientation and adjacency", "statement": "Polyhedron::IsClosed returns true exactly when, over the faces with at least two vertices, every directed edge is used once and its reverse is used too; FaceIndicesValid returns true exactly when every face has at least three different existing vertices; EdgeIndices returns each undirected edge once, in increasing order; for a valid closed polyhedron NumEdges equals the number of those edges and EulerFormulaHolds is V + F = E + 2; FlipWindingOrder reverses every face and every directed edge, twice is the identity, and keeps closedness and validity; GenerateVertexAdjacencyData lists for each vertex the vertices that faces visit right after it.", "quantifier": "for every list of faces (any number of faces and vertices)", "why_tests_cant": "the claims range over all face lists; tests can only try a few solids", "anchors": ["src/Geometry/Polyhedron.cpp:119", "src/Geometry/Polyhedron.cpp:154", "src/Geometry/Polyhedron.cpp:582", "src/Geometry/Polyhedron.cpp:611", "src/Geometry/Polyhedron.cpp:2992"]}
{"id": "C96", "title": "Polyhedron clean-up passes: degenerate faces, unused vertices, canonical order, face lookup", "statement": "RemoveDegenerateFaces keeps exactly the faces of three or more vertices in order; RemoveRedundantVertices keeps exactly the used vertices in order and every face corner keeps its vertex and closedness is kept, because the binary search finds every present value (a missing value makes that search run forever: refuted); SwapVertices renumbers without moving any face corner; CanonicalizeFaceArray gives a sorted permutation of cyclic shifts that start with the smallest index and its result does not depend on the order of the faces nor on where each starts; ContainsFace recognises a face only if it starts at the same or the opposite vertex (refuted as a test for cyclic equality, right after canonicalization).", "quantifier": "for every list of vertices and faces", "why_tests_cant": "the compaction loops, the search and the sort are over arrays of any size; the failing lookups need particular shifts", "anchors": ["src/Geometry/Polyhedron.cpp:2622", "src/Geometry/Polyhedron.cpp:2650", "src/Geometry/Polyhedron.cpp:2665", "src/Geometry/Polyhedron.cpp:3023", "src/Geometry/Polyhedron.cpp:3079", "src/Geometry/Polyhedron.cpp:3117"]}
{"id": "C97", "title": "Polyhedron::MergeConvex and the predefined solids: topology", "statement": "MergeConvex on a valid closed polyhedron keeps the faces not facing the point and adds exactly one triangle per edge of the rim of the hole; all faces stay valid, each directed edge is answered by its reverse, and the result is closed exactly when the rim visits no vertex twice. The face lists of the tetrahedron, octahedron, box, icosahedron and dodecahedron, and those of CreateCapsule and CreateSharpCapsule for every number of vertices per cap from 3, are valid, closed and satisfy Euler's formula.", "quantifier": "for every closed face list and set of deleted faces; for every n >= 3", "why_tests_cant": "the number of faces, the deleted set and the number of cap vertices are unbounded", "anchors": ["src/Geometry/Polyhedron.cpp:1464", "src/Geometry/Polyhedron.cpp:2506", "src/Geometry/Polyhedron.cpp:2552", "src/Geometry/Polyhedron.cpp:2280"]}
{"id": "C98", "title": "Convex Polyhedron containment and line tests", "statement": "For a closed convex polyhedron with outward faces ContainsConvex(point, 0) is true exactly for the convex hull of the vertices, and with a tolerance exactly for the points at most that far in front of each face; segments and triangles are contained exactly when all their points are. ClipLineSegmentToConvexPolyhedron returns exactly the part of the parameter interval inside the hull and fails exactly when that is empty, for directions not within the near-parallel threshold of a face; so IntersectsConvex of segments, rays and lines are exact. A short segment that crosses a face is nevertheless reported as missing. ClosestPointConvex of a point more than 1e-4 in front of some face is the nearest point of the solid (for faces that are whole facets and are triangles or proper convex polygons); points of the solid are returned unchanged, and so are points up to 1e-4 outside it (refuted for those).", "quantifier": "for every convex polyhedron, point, segment, ray, line and tolerance", "why_tests_cant": "the polyhedron has arbitrarily many vertices and faces with real coordinates, and 'hull' quantifies over all convex sets", "anchors": ["src/Geometry/Polyhedron.cpp:960", "src/Geometry/Polyhedron.cpp:1064", "src/Geometry/Polyhedron.cpp:1275", "src/Geometry/Polyhedron.cpp:980"]}
{"id": "C99", "title": "Polyhedron::MergeConvex builds the convex hull", "statement": "Merging a point into a closed convex polyhedron with outward faces (no duplicate vertices, no two collinear edges leaving a vertex the same way) gives again such a polyhedron, with all faces flat, convex, counterclockwise and outward, whose solid is exactly the hull of the old vertices and the point; nothing changes exactly when the point was inside. Merging any list of points therefore gives the hull of all of them.", "quantifier": "for every convex polyhedron and every list of points", "why_tests_cant": "the number of faces and of merged points is unbounded, and every merge must preserve the invariant used by the next", "anchors": ["src/Geometry/Polyhedron.cpp:1464"]}
{"id": "C100", "title": "Extreme and nearest vertices of a Polyhedron", "statement": "ExtremeVertex returns the first vertex farthest in the direction, ExtremePoint that vertex and its distance, and ProjectToAxis the exact interval covered by the convex hull; NearestVertex returns a vertex at the least distance (-1 without vertices). On a closed convex polyhedron a vertex that no edge neighbour beats is farthest of the whole solid, so ExtremeVertexConvex, started at any used vertex with fresh visit marks and the adjacency from GenerateVertexAdjacencyData, returns a farthest vertex and its distance.", "quantifier": "for every polyhedron, direction and starting vertex", "why_tests_cant": "the climb passes through arbitrarily many vertices; the local-to-global step sums over the faces around a vertex of arbitrary degree", "anchors": ["src/Geometry/Polyhedron.cpp:317", "src/Geometry/Polyhedron.cpp:345", "src/Geometry/Polyhedron.cpp:483", "src/Geometry/Polyhedron.cpp:722"]}
{"id": "C101", "title": "Polyhedron volume, area, centre of mass, convexity test, orientation and affine images", "statement": "For a closed convex polyhedron with outward faces: Volume is one sixth of the sum of the signed tetrahedra joining any point to the triangles of the faces, is positive, and SurfaceArea is the sum of the areas of those triangles; ConvexCentroid of a polyhedron of triangles is the centre of mass of the solid; IsConvex holds exactly when no vertex is more than 1/100 in front of a face; OrientNormalsOutsideConvex restores the outward orientation whichever faces were reversed; FacesAreNondegeneratePlanar accepts it; a transform with positive determinant gives a convex polyhedron whose solid is the image and whose volume is multiplied by the determinant. Transform by a float3x3 with positive determinant maps the solid onto its image; MinimalEnclosingAABB is the smallest box around it.", "quantifier": "All vertex and face lists of any size, over the real numbers", "why_tests_cant": "Statements about all solids, all reference points and all matrices; tests try a few solids. With four-sided faces ConvexCentroid is off, and IsConvex accepts everything smaller than 1/100.", "anchors": ["src/Geometry/Polyhedron.cpp:501", "src/Geometry/Polyhedron.cpp:540", "src/Geometry/Polyhedron.cpp:553", "src/Geometry/Polyhedron.cpp:653", "src/Geometry/Polyhedron.cpp:700", "src/Geometry/Polyhedron.cpp:1553", "src/Geometry/Polyhedron.cpp:1523"]}
{"id": "C102", "title": "LineSegment2D: nearest points, distances, containment and intersection", "statement": "ClosestPoint returns the point of the segment nearest to the query and its parameter; ClosestPoint(LineSegment2D) returns a nearest pair; the Distance and DistanceSq functions return the corresponding distances; Contains holds exactly when the squared distance is within the threshold; end points, reversal, translation, linear images, extreme points and projection agree with the point set. The segment/segment crossing test LineSegment2DLineSegment2DIntersect finds exactly the crossing of segments that are not nearly parallel, and for segments on one line finds an overlap exactly when there is one.", "quantifier": "for all segments and points of the real plane", "why_tests_cant": "nearest-point and crossing claims range over a continuum; nearly parallel segments 0.05 apart are reported as intersecting", "anchors": ["src/Geometry/LineSegment2D.cpp:46", "src/Geometry/LineSegment2D.cpp:77", "src/Geometry/LineSegment2D.cpp:212", "src/Geometry/LineSegment2D.cpp:227", "src/Geometry/LineSegment2D.cpp:292", "src/Geometry/LineSegment2D.cpp:459"]}
{"id": "C103", "title": "Triangle2D: nearest points, barycentric coordinates, extents, images", "statement": "ClosestPoint returns the point of a proper triangle nearest to the query, with Distance and DistanceSq the corresponding distances; edges, corners, centroid, perimeter, extreme points, bounding box and projection describe the point set; Transform gives the image; the random points lie in the triangle or on its edges; BarycentricUVW recovers the point when the triangle has unit signed area (twice the area 1).", "quantifier": "for all proper triangles and points of the real plane", "why_tests_cant": "claims over a continuum of triangles; BarycentricUVW does not divide by the area and IsDegenerate misses collinear corners", "anchors": ["src/Geometry/Triangle2D.cpp:89", "src/Geometry/Triangle2D.cpp:238", "src/Geometry/Triangle2D.cpp:704"]}
{"id": "C104", "title": "Circle2D: containment, distances and smallest enclosing circles", "statement": "Contains, Distance and SignedDistance describe the disc. The enclosing circle of two or three points contains them, and is the smallest one widened by 1e-5 when the three points are collinear or span more than a minimal area. For an array of points whose convex hull has four or more corners, OptimalEnclosingCircle terminates, its circle contains every hull corner (so every point, up to the hull's own tolerance), and its radius is at most 1e-3 above that of every enclosing circle. RandomPointInside lies in the disc.", "quantifier": "for every circle and point; for every array of points of any size over the real numbers", "why_tests_cant": "the claim that no enclosing circle is smaller ranges over all circles, and termination of the restarting loop over all arrays; when the hull has only three corners the circle can miss one of them by a wide margin", "anchors": ["src/Geometry/Circle2D.cpp:33", "src/Geometry/Circle2D.cpp:61", "src/Geometry/Circle2D.cpp:134", "src/Geometry/Circle2D.cpp:182", "src/Geometry/Circle2D.cpp:199", "src/Geometry/Circle2D.cpp:272"]}
{"id": "C105", "title": "Ray queries of a TriangleMesh report the nearest triangle, whatever the memory layout", "statement": "After TriangleMesh::SetAoS (three floats per vertex), SetSoA4 or SetSoA8 (any vertex stride) of an array holding the triangles, the ray query belonging to that layout returns the smallest distance at which the ray meets a triangle of the mesh (infinity and untouched outputs if none), together with the index of that triangle and the barycentric coordinates of the point; SetSoA4/8 store first corner and edges of triangle q*W+l in lane l of group q. Exceptions: triangles nearly parallel to the ray or small; the plain query enlarges triangles by 1/10000; the lane-wise query is exact up to the relative error of the hardware reciprocal and only covers full groups. Set itself loses all triangles in a SIMD build, the padding of SetConvex erases hits of its lane, and the plain query ignores the vertex stride.", "quantifier": "every number of triangles, lane width, vertex stride, ray and triangle list; every reciprocal of bounded relative error", "why_tests_cant": "The layout is an index permutation over buffers of every length and stride with in-place subtraction, and the lane-wise minimum runs over interleaved lanes; a test compares a few meshes and rays and cannot cover every group count, stride and tie.", "anchors": ["src/Geometry/TriangleMesh.cpp:221-436", "src/Geometry/TriangleMesh_IntersectRay_SSE.inl:20-247", "src/Geometry/TriangleMesh_IntersectRay_AVX.inl:23-221"]}
{"id": "C106", "title": "float4 algebra", "statement": "float4's lengths, distances, Normalize/Normalize3/NormalizeW, ScaleToLength, Min/MaxElementIndex, MinElement, clamps, Cross, Perpendicular/AnotherPerpendicular/PerpendicularBasis, ProjectTo, Reflect, Refract, Orthonormalize, AreOrthonormal, Lerp, AngleBetween and spherical coordinates compute what their documentation says, including the values returned for vectors too short to normalise; MaxElement should return the largest element and Refract should follow Snell's law (both refuted).", "quantifier": "all float4 values over the reals (element functions over any totally ordered number type, binary32 included), all tolerances", "why_tests_cant": "Tests sample well conditioned directions; the boundary cases (|v| at 1e-3, hint parallel to v, the largest element in z or w) and exact orthogonality for every input need a proof.", "anchors": ["src/Math/float4.cpp:283-500", "src/Math/float4.cpp:552-858", "src/Math/float4.cpp:870-1236"]}
{"id": "C107", "title": "float2::MinAreaRectInPlace ends and returns the rectangle of least area around the points", "statement": "For a non-empty array of points in which different points are more than 1e-3 apart, MinAreaRectInPlace ends (after at most 4n+1 rounds of its loop). The returned uDir, vDir are orthonormal, every point lies within [minU,maxU] x [minV,maxV] along them, each of the four bounds is attained by a point, center is the middle of the rectangle, the returned area is the product of the side lengths, and no rectangle of any orientation that contains the points has a smaller area. Different points closer than 1e-3 may be merged, and the rectangle then misses one of them.", "quantifier": "all finite point lists over exact reals, all rectangle orientations", "why_tests_cant": "optimality is a claim about a continuum of orientations and the loop's end depends on all point sets; tests check a few sets against a few angles", "anchors": ["src/Math/float2.cpp:535-627", "src/Math/float2.h:575-591"]}
{"id": "C108", "title": "Smallest boxes around flat point sets", "statement": "SmallestOBBVolumeOneEdgeFixed returns a box that has the given unit edge as an axis, contains every point and has the least volume among such boxes. SmallestOBBVolume2DPlanar, and OptimalEnclosingOBB for flat hulls, end and return a box with orthonormal axes that contains every point; for coplanar points it has thickness 0 across the plane and the least area in the plane. A single point gives the box of that point, two points the segment between them. The two-point box is wrong unless the points are exactly 1 apart, and points on a line give a box that misses points (both refuted).", "quantifier": "all point lists over exact reals whose different (projected) points are more than 1e-3 apart; all competing boxes of any orientation about the fixed axis", "why_tests_cant": "optimality is over a continuum of orientations and the loop's end depends on all point sets; the existing tests only feed solid point clouds", "anchors": ["src/Geometry/OBB.cpp:486-593", "src/Geometry/OBB.cpp:843-871"]}
{"id": "C109", "title": "Random vectors, rotations and points", "statement": "float2/float3::RandomDir return a vector of the requested length, float3::RandomSphere and RandomBox a point of the ball or box, Quat::RandomRotation a unit quaternion (float3x3::RandomRotation a rotation); the RandomPoint* functions of AABB, OBB, Capsule, convex Polygon and Frustum return a point inside, on the surface, on an edge or a corner as named. Conversely every member of the set is a possible result. Exceptions, proved: RandomPerpendicular returns (0,0,1) when the random direction is parallel to the vector, and Frustum::UniformRandomPointInside of a perspective frustum may return a point up to a thousandth of the cross section outside.", "quantifier": "all generator outcomes in the documented range of each draw, all shapes (proper frame and non-negative size), any number of rejected tries", "why_tests_cant": "The sets are infinite, and rejection loops may run up to 1000 times; tests sample a few outcomes and cannot show that none leaves the set or that all of the set is reached.", "anchors": ["src/Math/float3.cpp:871", "src/Math/float3.cpp:610", "src/Math/float2.cpp:629", "src/Math/Quat.cpp:705", "src/Geometry/AABB.cpp:414", "src/Geometry/OBB.cpp:2301", "src/Geometry/Capsule.cpp:214", "src/Geometry/Frustum.cpp:709", "src/Geometry/Polygon.cpp:896"]}
{"id": "C110", "title": "Tick arithmetic survives the wraparound of the counter", "statement": "Clock::TicksInBetween gives the number of ticks between two moments less than 2^64 ticks apart, and Clock::IsNewer tells the later of two moments less than 2^63-1 ticks apart, however often the 64-bit counter has wrapped; the answers do not depend on the absolute time. IsNewer is true of equal ticks although documented as strictly later.", "quantifier": "all pairs of moments, counted without bound", "why_tests_cant": "The counter takes centuries to wrap at usual frequencies; a test never sees it.", "anchors": ["src/Time/Clock.h:91", "src/Time/Clock.h:97"]}
{"id": "C111", "title": "Boxes, frustums, polygons and triangles convert to the right polyhedron", "statement": "AABB, OBB and Frustum::ToPolyhedron give a closed convex polyhedron with 8 vertices and 6 outward faces: FaceIndicesValid, IsClosed, EulerFormulaHolds and IsConvex are true, and ContainsConvex with tolerance 0 accepts exactly the points of the original solid. Its Volume is the product of the sides of a box, width times height times depth of an orthographic frustum, and 4/3 tan(h/2) tan(v/2) (far^3 - near^3) for a perspective frustum (also Frustum::Volume). An OBB with left-handed axes gives inward faces, so that even its centre is reported outside. Polygon and Triangle::ToPolyhedron give the polygon and the polygon backwards as the two faces of a closed polyhedron with the same vertices.", "quantifier": "all boxes with positive sizes, orthonormal frames, frustums of both types and both handednesses, polygons with three or more vertices", "why_tests_cant": "The assumes at the end of the conversions are compiled out, and a face listed in the wrong order or for the wrong handedness shows only as a wrong sign for some queries.", "anchors": ["src/Geometry/AABB.cpp:113", "src/Geometry/OBB.cpp:183", "src/Geometry/Frustum.cpp:988", "src/Geometry/Frustum.cpp:704", "src/Geometry/Polygon.cpp:910", "src/Geometry/Triangle.cpp:282"]}
{"id": "C112", "title": "Polygons, frustums and polyhedra as arguments of the box, sphere, capsule, oriented box, frustum and plane queries", "statement": "AABB::Contains(Polygon/Frustum/Polyhedron) returns true exactly when every point of the shape is in the box, and AABB::Enclose of one gives the smallest box around the old box and the shape. Sphere, Capsule and OBB::Contains(Frustum) return true exactly when every point of the frustum is in the container; Frustum::Contains(Frustum) never misses a contained frustum and accepts only within the tolerance of Frustum::Contains. Sphere::Enclose(Polygon/Polyhedron/Frustum) never shrinks and covers the old sphere and the shape. Plane::SignedDistance(Capsule/Frustum/Polygon/Polyhedron/Sphere/Triangle) is zero when the shape meets the plane, otherwise its distance with the sign of its side; Plane::Intersects(Frustum/Polyhedron) holds exactly when some point is strictly below the plane and some is not; Plane::Contains(Polygon) recognises every polygon that lies in the plane.", "quantifier": "all containers, all valid frustums, all non-empty vertex lists, all planes with unit normal, over the reals", "why_tests_cant": "Tests check a handful of corner positions; the claim is about every point of the solid, for any number of vertices.", "anchors": ["src/Geometry/AABB.cpp:661-674", "src/Geometry/AABB.cpp:1091-1104", "src/Geometry/Sphere.cpp:223-230", "src/Geometry/Sphere.cpp:726-744", "src/Geometry/Sphere.cpp:796-809", "src/Geometry/Capsule.cpp:368-375", "src/Geometry/OBB.cpp:2459-2466", "src/Geometry/Frustum.cpp:620-627", "src/Geometry/Plane.cpp:231-256", "src/Geometry/Plane.cpp:457-467", "src/Geometry/Plane.cpp:702-720"]}
{"id": "C113", "title": "Convex polygons against spheres, capsules and line segments", "statement": "For a convex polygon with any number of corners, in any plane, Polygon::Intersects(Sphere) returns true exactly when the polygon and the ball share a point. Polygon::Intersects(Capsule) returns true exactly when they share a point, for every capsule whose axis does not touch the plane of the polygon, and returns true whenever the axis pierces the polygon at more than a tiny angle. Polygon::ClosestPoint(LineSegment) returns a point of the polygon and a point of the segment, and no other such pair is closer, for every segment that does not touch the plane.", "quantifier": "for all convex polygons with a counter-clockwise outline and first edge longer than 1e-6, all spheres with a radius of at least zero, all capsules and segments with distinct end points", "why_tests_cant": "The answers come from a triangulation and a search over its triangles: whether a missed triangle or a wrong comparison shows depends on which piece is nearest, and polygons have any number of corners.", "anchors": ["src/Geometry/Polygon.cpp:706-726", "src/Geometry/Polygon.cpp:748-774", "src/Geometry/Triangle.cpp:855-858", "src/Geometry/Capsule.cpp:431-441", "src/Geometry/Sphere.cpp:634-637"]}
{"id": "C114", "title": "Convex polygon against axis-aligned and oriented boxes", "statement": "Polygon::Intersects(AABB) and Polygon::Intersects(OBB) return true only if the box and the polygon come within 1/5000 of each other. If the GJK early-out ends before its iteration limit, they return true whenever an edge of the polygon meets the box, and whenever the two share a point and the outline of the polygon stays more than 1/5000 away from the part of its plane inside the box.", "quantifier": "for all convex counter-clockwise polygons with any number of corners in any plane, and all boxes, with no box edge nearly parallel to the polygon and no polygon edge nearly (but not exactly) parallel to a box face or shorter than 1e-4", "why_tests_cant": "The box can be pierced by the polygon without any polygon edge touching it; the answer then depends on which of 12 box edges is tested against the interior, for every position and tilt.", "anchors": ["src/Geometry/Polygon.cpp:543-600", "src/Geometry/Polygon.cpp:521-540", "src/Geometry/Polygon.h:65", "src/Geometry/AABB.cpp:198-232", "src/Geometry/OBB.cpp:287-306"]}
{"id": "C115", "title": "Convex polygons in planes that cross", "statement": "Polygon::Intersects(Polygon), for planes that are not parallel, returns true only if the two polygons come within 1/5000 of each other. It returns true whenever they share a point, provided that wherever the outline of one meets the other it does so more than 1/5000 inside that other polygon. For all polygons whatsoever in such planes, swapping the two does not change the answer.", "quantifier": "for all pairs of convex counter-clockwise polygons with any number of corners, in any two planes whose unit normals have a cross product of squared length above 1e-7, every edge of each crossing the plane of the other at a slope above 1e-4 or lying parallel to it and more than 1e-3 off it", "why_tests_cant": "The claim that an edge of one of the two passes through the other holds for every pair of shapes, positions and corner counts, which sampling cannot cover.", "anchors": ["src/Geometry/Polygon.cpp:612-648", "src/Geometry/Polygon.cpp:696-699", "src/Geometry/Plane.cpp:596-634"]}
