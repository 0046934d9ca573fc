(** Frustum (/repo/src/Geometry/Frustum.h, Frustum.cpp) and PBVolume (/repo/src/Geometry/PBVolume.h), scalar build.

    Not modelled: [ToPolyhedron] and [Volume] (see ToHedModel.v), perspective [ClosestPoint], [Intersects] with lines, rays and
    polyhedra, [Intersects] through GJK, random points, [IsFinite], strings. *)
From Coq Require Import ZArith Bool List.
From Verif Require Import Num ScalarModel Vec3Model GeoTypes MatModel AabbModel LineModel RotModel PlaneModel SphereModel ObbModel Vec2Model.
Import ListNotations.

(** Frustum.h:30-49 [FrustumType], 51-70 [FrustumProjectiveSpace], 72-95 [FrustumHandedness]. *)
Inductive frustumType := InvalidFrustum | OrthographicFrustum | PerspectiveFrustum.
Inductive frustumSpace := FrustumSpaceInvalid | FrustumSpaceGL | FrustumSpaceD3D.
Inductive frustumHandedness := FrustumHandednessInvalid | FrustumLeftHanded | FrustumRightHanded.

(** Frustum.h:97-165.  [fhw] is the union of horizontalFov and orthographicWidth, [fvh] that of verticalFov and
    orthographicHeight.  NaN members: the flags tell which of pos, front, up, and the plane distances have been given a value,
    and a matrix with a NaN element is [None]. *)
Record frustum (T : Type) := Frustum {
  ftype : frustumType; fspace : frustumSpace; fhand : frustumHandedness;
  fpos : vec T; ffront : vec T; fup : vec T; fnear : T; ffar : T; fhw : T; fvh : T;
  hasPos : bool; hasFront : bool; hasUp : bool; hasDist : bool;
  worldMatrix : option (mat34 T); projectionMatrix : option (mat4 T); viewProjMatrix : option (mat4 T) }.
Arguments Frustum {T}. Arguments ftype {T}. Arguments fspace {T}. Arguments fhand {T}. Arguments fpos {T}. Arguments ffront {T}. Arguments fup {T}.
Arguments fnear {T}. Arguments ffar {T}. Arguments fhw {T}. Arguments fvh {T}. Arguments hasPos {T}. Arguments hasFront {T}. Arguments hasUp {T}. Arguments hasDist {T}.
Arguments worldMatrix {T}. Arguments projectionMatrix {T}. Arguments viewProjMatrix {T}.
(** PBVolume.h:30-41 [CullTestResult]. *)
Inductive cullTestResult := TestOutside | TestNotContained | TestInside.

Section Frustum.
  Context {T : Type} `{TT : NumTrig T}.
  Local Open Scope num_scope.
  Implicit Types (f : frustum T) (p : vec T).

  (** MathFunc.cpp [Tan], [Atan]: tanf is sinf / cosf and atanf(x) is atan2f(x, 1) here, which over the reals are the same functions. *)
  Definition Tan (x : T) : T := nsin x / ncos x.
  Definition Atan (x : T) : T := natan2 x n1.
  Definition persp f : bool := match ftype f with PerspectiveFrustum => true | _ => false end.
  Definition rightHanded f : bool := match fhand f with FrustumRightHanded => true | _ => false end.

  (** Frustum.cpp:185-191 [WorldRight], 193-207 [NearPlaneWidth], [NearPlaneHeight]. *)
  Definition WorldRight f : vec T := if rightHanded f then Cross (ffront f) (fup f) else Cross (fup f) (ffront f).
  Definition NearPlaneWidth f : T := if persp f then Tan (fhw f * nhalf) * n2 * fnear f else fhw f.
  Definition NearPlaneHeight f : T := if persp f then Tan (fvh f * nhalf) * n2 * fnear f else fvh f.
  (** Frustum.cpp:390-410 [NearPlanePos], 417-437 [FarPlanePos]. *)
  Definition planePos f (dist x y : T) : vec T :=
    if persp f then
      let halfWidth := Tan (fhw f * nhalf) * dist in
      let halfHeight := Tan (fvh f * nhalf) * dist in
      vadd (vadd (vadd (fpos f) (vmuls (ffront f) dist)) (smulv (x * halfWidth) (WorldRight f))) (smulv (y * halfHeight) (fup f))
    else
      vadd (vadd (vadd (fpos f) (vmuls (ffront f) dist)) (smulv (x * fhw f * nhalf) (WorldRight f))) (smulv (y * fvh f * nhalf) (fup f)).
  Definition NearPlanePos f (x y : T) : vec T := planePos f (fnear f) x y.
  Definition FarPlanePos f (x y : T) : vec T := planePos f (ffar f) x y.
  (** Frustum.cpp:209-217 [NearPlane], [FarPlane], 219-251 [LeftPlane], [RightPlane], 253-281 [TopPlane], [BottomPlane]. *)
  Definition NearPlane f : plane T := Plane_Set (vadd (fpos f) (vmuls (ffront f) (fnear f))) (vneg (ffront f)).
  Definition FarPlane f : plane T := Plane_Set (vadd (fpos f) (vmuls (ffront f) (ffar f))) (ffront f).
  Definition LeftPlane f : plane T :=
    if persp f then
      let left := ScaledToLength (vneg (WorldRight f)) (Tan (fhw f * nhalf)) in
      let leftSide := vadd (ffront f) left in
      Plane_Set (fpos f) (Normalized (if rightHanded f then Cross (fup f) leftSide else Cross leftSide (fup f)))
    else Plane_Set (NearPlanePos f (- n1) n0) (Normalized (vneg (WorldRight f))).
  Definition RightPlane f : plane T :=
    if persp f then
      let right := ScaledToLength (WorldRight f) (Tan (fhw f * nhalf)) in
      let rightSide := vadd (ffront f) right in
      Plane_Set (fpos f) (Normalized (if rightHanded f then Cross rightSide (fup f) else Cross (fup f) rightSide))
    else Plane_Set (NearPlanePos f n1 n0) (Normalized (WorldRight f)).
  Definition TopPlane f : plane T :=
    if persp f then
      let topSide := vadd (ffront f) (smulv (Tan (fvh f * nhalf)) (fup f)) in
      let right := WorldRight f in
      Plane_Set (fpos f) (Normalized (if rightHanded f then Cross right topSide else Cross topSide right))
    else Plane_Set (NearPlanePos f n0 n1) (fup f).
  Definition BottomPlane f : plane T :=
    if persp f then
      let bottomSide := vsub (ffront f) (smulv (Tan (fvh f * nhalf)) (fup f)) in
      let left := vneg (WorldRight f) in
      Plane_Set (fpos f) (Normalized (if rightHanded f then Cross left bottomSide else Cross bottomSide left))
    else Plane_Set (NearPlanePos f n0 (- n1)) (vneg (fup f)).
  (** Frustum.cpp:689-702 [GetPlane], 783-788 [GetPlanes]. *)
  Definition Frustum_GetPlane f (faceIndex : nat) : plane T :=
    match faceIndex with 1%nat => FarPlane f | 2%nat => LeftPlane f | 3%nat => RightPlane f | 4%nat => TopPlane f | 5%nat => BottomPlane f | _ => NearPlane f end.
  Definition Frustum_GetPlanes f : list (plane T) := map (Frustum_GetPlane f) (seq 0 6).

  (** Frustum.cpp:301-317 [ComputeWorldMatrix], 319-324 [ComputeViewMatrix], 326-329 [ComputeViewProjMatrix], 331-388 [ComputeProjectionMatrix].
      Simplification: the world matrix is [None] as soon as pos, front or up is unset (with pos alone unset the code has NaN only in the last column). *)
  Definition worldOf f : mat34 T :=
    M34 (ofCols (Normalized (WorldRight f)) (fup f) (if rightHanded f then vneg (ffront f) else ffront f)) (fpos f).
  Definition ComputeWorldMatrix f : option (mat34 T) := if hasPos f && hasFront f && hasUp f then Some (worldOf f) else None.
  Definition ComputeViewMatrix f : option (mat34 T) := option_map InverseOrthonormal34 (ComputeWorldMatrix f).
  Definition ComputeProjectionMatrix f : option (mat4 T) :=
    if hasDist f then
      match ftype f, fspace f, fhand f with
      | PerspectiveFrustum, FrustumSpaceGL, FrustumRightHanded => Some (OpenGLPerspProjRH (fnear f) (ffar f) (NearPlaneWidth f) (NearPlaneHeight f))
      | PerspectiveFrustum, FrustumSpaceGL, FrustumLeftHanded => Some (OpenGLPerspProjLH (fnear f) (ffar f) (NearPlaneWidth f) (NearPlaneHeight f))
      | PerspectiveFrustum, FrustumSpaceD3D, FrustumRightHanded => Some (D3DPerspProjRH (fnear f) (ffar f) (NearPlaneWidth f) (NearPlaneHeight f))
      | PerspectiveFrustum, FrustumSpaceD3D, FrustumLeftHanded => Some (D3DPerspProjLH (fnear f) (ffar f) (NearPlaneWidth f) (NearPlaneHeight f))
      | OrthographicFrustum, FrustumSpaceGL, FrustumRightHanded => Some (OpenGLOrthoProjRH (fnear f) (ffar f) (fhw f) (fvh f))
      | OrthographicFrustum, FrustumSpaceGL, FrustumLeftHanded => Some (OpenGLOrthoProjLH (fnear f) (ffar f) (fhw f) (fvh f))
      | OrthographicFrustum, FrustumSpaceD3D, FrustumRightHanded => Some (D3DOrthoProjRH (fnear f) (ffar f) (fhw f) (fvh f))
      | OrthographicFrustum, FrustumSpaceD3D, FrustumLeftHanded => Some (D3DOrthoProjLH (fnear f) (ffar f) (fhw f) (fvh f))
      | _, _, _ => None
      end
    else None.
  Definition viewProjOf (proj : option (mat4 T)) (world : option (mat34 T)) : option (mat4 T) :=
    match proj, world with Some P, Some W => Some (mulm4_34 P (InverseOrthonormal34 W)) | _, _ => None end.
  Definition ComputeViewProjMatrix f : option (mat4 T) :=
    match ComputeProjectionMatrix f, ComputeViewMatrix f with Some P, Some V => Some (mulm4_34 P V) | _, _ => None end.
  Definition setMatrices f (w : option (mat34 T)) (pr vp : option (mat4 T)) : frustum T :=
    Frustum (ftype f) (fspace f) (fhand f) (fpos f) (ffront f) (fup f) (fnear f) (ffar f) (fhw f) (fvh f) (hasPos f) (hasFront f) (hasUp f) (hasDist f) w pr vp.
  (** Frustum.cpp:145-151 [WorldMatrixChanged], 153-162 [ProjectionMatrixChanged]. *)
  Definition WorldMatrixChanged f : frustum T :=
    let w := ComputeWorldMatrix f in setMatrices f w (projectionMatrix f) (viewProjOf (projectionMatrix f) w).
  Definition ProjectionMatrixChanged f : frustum T :=
    let pr := ComputeProjectionMatrix f in
    setMatrices f (worldMatrix f) pr (match worldMatrix f with Some _ => viewProjOf pr (worldMatrix f) | None => viewProjMatrix f end).
  (** Frustum.cpp:57-85 [Frustum()] without the MATH_USE_* macros; [z] stands for the unset numbers.  The code leaves projectionMatrix uninitialised: [None] as well. *)
  Definition Frustum_new (z : T) : frustum T :=
    let v := V3 z z z in Frustum InvalidFrustum FrustumSpaceInvalid FrustumHandednessInvalid v v v z z z z false false false false None None None.
  (** Frustum.cpp:87-143: the setters.  [SetKind] recomputes the world matrix when up is finite. *)
  Definition SetKind f (sp : frustumSpace) (h : frustumHandedness) : frustum T :=
    let g := Frustum (ftype f) sp h (fpos f) (ffront f) (fup f) (fnear f) (ffar f) (fhw f) (fvh f) (hasPos f) (hasFront f) (hasUp f) (hasDist f) (worldMatrix f) (projectionMatrix f) (viewProjMatrix f) in
    ProjectionMatrixChanged (if hasUp f then WorldMatrixChanged g else g).
  Definition SetViewPlaneDistances f (n d : T) : frustum T :=
    ProjectionMatrixChanged (Frustum (ftype f) (fspace f) (fhand f) (fpos f) (ffront f) (fup f) n d (fhw f) (fvh f) (hasPos f) (hasFront f) (hasUp f) true (worldMatrix f) (projectionMatrix f) (viewProjMatrix f)).
  Definition SetFrame f (p fr u : vec T) : frustum T :=
    WorldMatrixChanged (Frustum (ftype f) (fspace f) (fhand f) p fr u (fnear f) (ffar f) (fhw f) (fvh f) true true true (hasDist f) (worldMatrix f) (projectionMatrix f) (viewProjMatrix f)).
  Definition SetPos f (p : vec T) : frustum T :=
    WorldMatrixChanged (Frustum (ftype f) (fspace f) (fhand f) p (ffront f) (fup f) (fnear f) (ffar f) (fhw f) (fvh f) true (hasFront f) (hasUp f) (hasDist f) (worldMatrix f) (projectionMatrix f) (viewProjMatrix f)).
  Definition SetFront f (fr : vec T) : frustum T :=
    WorldMatrixChanged (Frustum (ftype f) (fspace f) (fhand f) (fpos f) fr (fup f) (fnear f) (ffar f) (fhw f) (fvh f) (hasPos f) true (hasUp f) (hasDist f) (worldMatrix f) (projectionMatrix f) (viewProjMatrix f)).
  Definition SetUp f (u : vec T) : frustum T :=
    WorldMatrixChanged (Frustum (ftype f) (fspace f) (fhand f) (fpos f) (ffront f) u (fnear f) (ffar f) (fhw f) (fvh f) (hasPos f) (hasFront f) true (hasDist f) (worldMatrix f) (projectionMatrix f) (viewProjMatrix f)).
  Definition setLens f (t : frustumType) (h v : T) : frustum T :=
    ProjectionMatrixChanged (Frustum t (fspace f) (fhand f) (fpos f) (ffront f) (fup f) (fnear f) (ffar f) h v (hasPos f) (hasFront f) (hasUp f) (hasDist f) (worldMatrix f) (projectionMatrix f) (viewProjMatrix f)).
  Definition SetPerspective f (h v : T) : frustum T := setLens f PerspectiveFrustum h v.
  Definition SetOrthographic f (w h : T) : frustum T := setLens f OrthographicFrustum w h.
  (** Frustum.cpp:164-167 [AspectRatio], 169-175 [SetHorizontalFovAndAspectRatio], 177-183 [SetVerticalFovAndAspectRatio]. *)
  Definition AspectRatio f : T := Tan (fhw f * nhalf) / Tan (fvh f * nhalf).
  Definition SetHorizontalFovAndAspectRatio f (hFov aspectRatio : T) : frustum T := setLens f PerspectiveFrustum hFov (n2 * Atan (Tan (hFov * nhalf) / aspectRatio)).
  Definition SetVerticalFovAndAspectRatio f (vFov aspectRatio : T) : frustum T := setLens f PerspectiveFrustum (n2 * Atan (Tan (vFov * nhalf) * aspectRatio)) vFov.
  (** Frustum.cpp:283-299 [SetWorldMatrix]. *)
  Definition SetWorldMatrix f (w : mat34 T) : frustum T :=
    SetFrame f (trans34 w) (if rightHanded f then vneg (col2 (lin34 w)) else col2 (lin34 w)) (col1 (lin34 w)).
  (** Frustum.cpp:735-738 [Translate], 740-781 [Transform]: neither touches the matrices. *)
  Definition Frustum_Translate f (offset : vec T) : frustum T :=
    Frustum (ftype f) (fspace f) (fhand f) (vadd (fpos f) offset) (ffront f) (fup f) (fnear f) (ffar f) (fhw f) (fvh f) (hasPos f) (hasFront f) (hasUp f) (hasDist f) (worldMatrix f) (projectionMatrix f) (viewProjMatrix f).
  Definition frustumTransform f (mulpos muldir : vec T -> vec T) : frustum T :=
    let '(front, s) := Normalize (muldir (ffront f)) in
    let ortho := match ftype f with OrthographicFrustum => true | _ => false end in
    Frustum (ftype f) (fspace f) (fhand f) (mulpos (fpos f)) front (Normalized (muldir (fup f))) (fnear f * s) (ffar f * s)
      (if ortho then fhw f * s else fhw f) (if ortho then fvh f * s else fvh f) (hasPos f) (hasFront f) (hasUp f) (hasDist f) (worldMatrix f) (projectionMatrix f) (viewProjMatrix f).
  Definition Frustum_Transform3 f (m : mat3 T) : frustum T := frustumTransform f (mulv m) (mulv m).
  Definition Frustum_Transform34 f (m : mat34 T) : frustum T := frustumTransform f (mulpos34 m) (muldir34 m).
  Definition Frustum_TransformQuat f (q : quat T) : frustum T := Frustum_Transform3 f (FromQuat q).

  (** Frustum.cpp:444-462 [ViewportToScreenSpace], [ScreenToViewportSpace]; the screen sizes are given as numbers. *)
  Definition ViewportToScreenSpace (x y screenWidth screenHeight : T) : v2 T :=
    V2 ((x + n1) * nhalf * (screenWidth - n1)) ((n1 - y) * nhalf * (screenHeight - n1)).
  Definition ScreenToViewportSpace (x y screenWidth screenHeight : T) : v2 T :=
    V2 (x * n2 / (screenWidth - n1) - n1) (n1 - y * n2 / (screenHeight - n1)).
  (** Frustum.cpp:464-477 [UnProject], 479-484 [UnProjectLineSegment], 486-489 [UnProjectFromNearPlane], 491-496 [PointInside]. *)
  Definition UnProjectLineSegment f (x y : T) : segment T := Seg (NearPlanePos f x y) (FarPlanePos f x y).
  Definition UnProjectFromNearPlane f (x y : T) : ray T := Ray_FromSegment (UnProjectLineSegment f x y).
  Definition UnProject f (x y : T) : ray T :=
    if persp f then Ry (fpos f) (Normalized (vsub (NearPlanePos f x y) (fpos f))) else UnProjectFromNearPlane f x y.
  Definition Frustum_PointInside f (x y z : T) : vec T := Seg_GetPoint (UnProjectLineSegment f x y) z.
  (** Frustum.cpp:498-503 [Project], float4.cpp:390-404 [NormalizeW]; [None]: a NaN matrix. *)
  Definition NormalizeW (v : v4 T) : v4 T :=
    if Abs (w3 v) >? nlit 1 1000000 then let invW := n1 / w3 v in X4 (w0 v * invW) (w1 v * invW) (w2 v * invW) n1 else v.
  Definition Frustum_Project f p : option (vec T) := option_map (fun M => xyz4 (NormalizeW (Transform4 M (x34 p n1)))) (viewProjMatrix f).
  (** Frustum.cpp:505-545 [Contains(point)]; comparisons with NaN are false. *)
  Definition Frustum_Contains f p : bool :=
    let eps := nlit 1 1000 in
    let position := n1 + eps in
    let neg := - position in
    match Frustum_Project f p with
    | None => false
    | Some q =>
        match fspace f with
        | FrustumSpaceInvalid => false
        | s =>
            (neg <=? vx q) && (vx q <=? position) && (neg <=? vy q) && (vy q <=? position) &&
            ((match s with FrustumSpaceD3D => - eps | _ => neg end) <=? vz q) && (vz q <=? position)
        end
    end.
  (** Frustum.cpp:547-637 [Contains] of a LineSegment, Triangle, Polygon, AABB, OBB, Frustum and Polyhedron (scalar path): all corner points. *)
  Definition Frustum_ContainsVertices f (pts : list (vec T)) : bool := forallb (Frustum_Contains f) pts.

  (** Frustum.cpp:639-675 [ClosestPoint] for orthographic frustums ([None]: the perspective case, which goes through Polyhedron). *)
  Definition Frustum_ClosestPoint f p : option (vec T) :=
    match ftype f with
    | OrthographicFrustum =>
        let frontHalfSize := (ffar f - fnear f) * nhalf in
        let halfWidth := fhw f * nhalf in
        let halfHeight := fvh f * nhalf in
        let frustumCenter := vadd (fpos f) (smulv (frontHalfSize + fnear f) (ffront f)) in
        let right := Cross (ffront f) (fup f) in
        let d := vsub p frustumCenter in
        let c := vadd frustumCenter (smulv (Clamp (Dot d (ffront f)) (- frontHalfSize) frontHalfSize) (ffront f)) in
        let c := vadd c (smulv (Clamp (Dot d right) (- halfWidth) halfWidth) right) in
        Some (vadd c (smulv (Clamp (Dot d (fup f)) (- halfHeight) halfHeight) (fup f)))
    | _ => None
    end.
  (** Frustum.cpp:790-793 [CenterPoint], 795-843 [GetCornerPoints], 866-881 [CornerPoint], 845-864 [Edge]. *)
  Definition Frustum_CenterPoint f : vec T := vadd (fpos f) (smulv ((fnear f + ffar f) * nhalf) (ffront f)).
  Definition Frustum_GetCornerPoints f : list (vec T) :=
    let right := WorldRight f in
    let nearCenter := vadd (fpos f) (vmuls (ffront f) (fnear f)) in
    let farCenter := vadd (fpos f) (vmuls (ffront f) (ffar f)) in
    let four c w h := [vsub (vsub c w) h; vsub (vadd c w) h; vadd (vsub c w) h; vadd (vadd c w) h] in
    if persp f then
      let tanhfov := Tan (fhw f * nhalf) in
      let tanvfov := Tan (fvh f * nhalf) in
      four nearCenter (smulv (tanhfov * fnear f) right) (smulv (tanvfov * fnear f) (fup f)) ++
      four farCenter (smulv (tanhfov * ffar f) right) (smulv (tanvfov * ffar f) (fup f))
    else
      let halfWidth := smulv (fhw f * nhalf) right in
      let halfHeight := smulv (fvh f * nhalf) (fup f) in
      four nearCenter halfWidth halfHeight ++ four farCenter halfWidth halfHeight.
  Definition Frustum_CornerPoint f (cornerIndex : nat) : vec T :=
    match cornerIndex with
    | 1%nat => FarPlanePos f (- n1) (- n1) | 2%nat => NearPlanePos f (- n1) n1 | 3%nat => FarPlanePos f (- n1) n1 | 4%nat => NearPlanePos f n1 (- n1)
    | 5%nat => FarPlanePos f n1 (- n1) | 6%nat => NearPlanePos f n1 n1 | 7%nat => FarPlanePos f n1 n1 | _ => NearPlanePos f (- n1) (- n1)
    end.
  Definition Frustum_Edge f (edgeIndex : nat) : segment T :=
    let e a b := Seg (Frustum_CornerPoint f a) (Frustum_CornerPoint f b) in
    match edgeIndex with
    | 1%nat => e 0%nat 2%nat | 2%nat => e 0%nat 4%nat | 3%nat => e 1%nat 3%nat | 4%nat => e 1%nat 5%nat | 5%nat => e 2%nat 3%nat | 6%nat => e 2%nat 6%nat
    | 7%nat => e 3%nat 7%nat | 8%nat => e 4%nat 5%nat | 9%nat => e 4%nat 6%nat | 10%nat => e 5%nat 7%nat | 11%nat => e 6%nat 7%nat | _ => e 0%nat 1%nat
    end.
  (** Frustum.cpp:883-899 [ExtremePoint], 901-913 [ProjectToAxis].  The code starts from infinities; here from the first corner, which is the same for finite corners. *)
  Definition Frustum_ExtremePoint f (direction : vec T) : vec T * T :=
    match Frustum_GetCornerPoints f with
    | [] => (fpos f, n0)
    | c :: rest => fold_left (fun acc c => let d := Dot direction c in if d >? snd acc then (c, d) else acc) rest (c, Dot direction c)
    end.
  Definition Frustum_ProjectToAxis f (direction : vec T) : T * T :=
    match Frustum_GetCornerPoints f with
    | [] => (n0, n0)
    | c :: rest => fold_left (fun acc c => let d := Dot direction c in (Min (fst acc) d, Max (snd acc) d)) rest (Dot direction c, Dot direction c)
    end.
  (** Frustum.cpp:915-933 [UniqueFaceNormals], 935-954 [UniqueEdgeDirections]. *)
  Definition Frustum_UniqueFaceNormals f : list (vec T) :=
    if persp f then [ffront f; pnormal (LeftPlane f); pnormal (RightPlane f); pnormal (TopPlane f); pnormal (BottomPlane f)]
    else [ffront f; fup f; Cross (ffront f) (fup f)].
  Definition Frustum_UniqueEdgeDirections f : list (vec T) :=
    if persp f then
      [vsub (NearPlanePos f (- n1) (- n1)) (NearPlanePos f n1 (- n1)); vsub (NearPlanePos f (- n1) (- n1)) (NearPlanePos f (- n1) n1);
       vsub (FarPlanePos f (- n1) (- n1)) (NearPlanePos f (- n1) (- n1)); vsub (FarPlanePos f n1 (- n1)) (NearPlanePos f n1 (- n1));
       vsub (FarPlanePos f (- n1) n1) (NearPlanePos f (- n1) n1); vsub (FarPlanePos f n1 n1) (NearPlanePos f n1 n1)]
    else [ffront f; fup f; Cross (ffront f) (fup f)].
  (** Frustum.cpp:956-963 [MinimalEnclosingAABB] (from the first corner instead of the empty box), 965-986 [MinimalEnclosingOBB]. *)
  Definition Frustum_MinimalEnclosingAABB f : aabb T :=
    fold_left (fun b i => AABB_Enclose b (Frustum_CornerPoint f i)) (seq 1 7) (Box (Frustum_CornerPoint f 0) (Frustum_CornerPoint f 0)).
  Definition Frustum_MinimalEnclosingOBB f (expandGuardband : T) : obb T :=
    let a1 := fup f in
    let a2 := vneg (ffront f) in
    let o := Obb (vadd (fpos f) (smulv ((fnear f + ffar f) * nhalf) (ffront f))) (V3 n0 n0 n0) (Cross a1 a2) a1 a2 in
    let o := fold_left (fun b i => OBB_Enclose b (Frustum_CornerPoint f i)) (seq 0 8) o in
    Obb (opos o) (V3 (vx (orad o) + expandGuardband) (vy (orad o) + expandGuardband) (vz (orad o) + expandGuardband)) (oaxis0 o) (oaxis1 o) (oaxis2 o).
  (** Frustum.cpp:1029-1040 [ToPBVolume]. *)
  Definition Frustum_ToPBVolume f : list (plane T) := [NearPlane f; LeftPlane f; RightPlane f; TopPlane f; BottomPlane f; FarPlane f].
End Frustum.

(** PBVolume<N> is the list of its planes. *)
Section PBVolume.
  Context {T : Type} `{NT : Num T}.
  Local Open Scope num_scope.
  Implicit Types (V : list (plane T)) (p : vec T).
  (** PBVolume.h:57-63 [Contains]. *)
  Definition PBVolume_Contains V p : bool := forallb (fun P => negb (Plane_SignedDistance P p >? n0)) V.
  (** PBVolume.h:70-112 [InsideOrIntersects(AABB)]: the corner nearest against the normal and the one farthest along it. *)
  Definition pb_nPoint (P : plane T) (b : aabb T) : vec T :=
    let n := pnormal P in
    V3 (if vx n <? n0 then vx (maxPoint b) else vx (minPoint b)) (if vy n <? n0 then vy (maxPoint b) else vy (minPoint b)) (if vz n <? n0 then vz (maxPoint b) else vz (minPoint b)).
  Definition pb_pPoint (P : plane T) (b : aabb T) : vec T :=
    let n := pnormal P in
    V3 (if vx n >=? n0 then vx (maxPoint b) else vx (minPoint b)) (if vy n >=? n0 then vy (maxPoint b) else vy (minPoint b)) (if vz n >=? n0 then vz (maxPoint b) else vz (minPoint b)).
  Fixpoint pb_loop (near far : plane T -> bool) V (result : cullTestResult) : cullTestResult :=
    match V with
    | [] => result
    | P :: rest => if near P then TestOutside else pb_loop near far rest (if far P then TestNotContained else result)
    end.
  Definition PBVolume_InsideOrIntersectsAABB V (b : aabb T) : cullTestResult :=
    pb_loop (fun P => Plane_SignedDistance P (pb_nPoint P b) >=? n0) (fun P => Plane_SignedDistance P (pb_pPoint P b) >=? n0) V TestInside.
  (** PBVolume.h:114-126 [InsideOrIntersects(Sphere)]. *)
  Definition PBVolume_InsideOrIntersectsSphere V (s : sphere T) : cullTestResult :=
    pb_loop (fun P => Plane_SignedDistance P (spos s) >=? srad s) (fun P => Plane_SignedDistance P (spos s) >=? - srad s) V TestInside.
  (** PBVolume.h:275-284 [SetIntersection]. *)
  Definition PBVolume_SetIntersection V (W : list (plane T)) : list (plane T) := V ++ W.
End PBVolume.
