(** TriangleMesh: the two memory layouts of a mesh and the nearest ray hit computed from each.
    A buffer is a list of floats; reading outside it, or a float the code has not written, is [None]. *)
From Coq Require Import ZArith Bool List Arith.
From Verif Require Import Num ScalarModel Vec3Model GeoTypes LineModel TriangleModel KdTreeModel.
Import ListNotations.

Section TriMesh.
  Context {T : Type} `{NT : Num T} `{NI : !NumInf T}.
  Local Open Scope num_scope.

  (** TriangleMesh.h:74-76 [data, numTriangles, vertexSizeBytes]. *)
  Record mesh := Mesh { m_data : list T; m_num : nat; m_vsize : nat }.
  (** TriangleMesh.cpp:170-177 [TriangleMesh()]. *)
  Definition Mesh_empty : mesh := Mesh [] 0 0.
  (** sizeof(float). *)
  Definition floatBytes : nat := 4%nat.

  Definition obind {A B} (o : option A) (f : A -> option B) : option B := match o with Some a => f a | None => None end.

  (** TriangleMesh.cpp:302-310 [SetAoS], with 294-300 [ReallocVertexBuffer]: copies numTris*3*vtxSizeBytes bytes.  Simplified: the byte count is a
      multiple of 4. *)
  Definition SetAoS (src : list T) (numTris vtxSizeBytes : nat) : option mesh :=
    let n := (numTris * 3 * vtxSizeBytes / floatBytes)%nat in
    if (n <=? length src)%nat then Some (Mesh (firstn n src) numTris vtxSizeBytes) else None.

  (** TriangleMesh.cpp:335-338 (W = 4), 382-389 (W = 8): *o++ = src[0]; *o++ = src[triangleSizeFloats]; ... *)
  Fixpoint gather (src : list T) (pos stride w : nat) : option (list T) :=
    match w with
    | O => Some []
    | S w' => obind (nth_error src pos) (fun x => option_map (cons x) (gather src (pos + stride) stride w'))
    end.
  (** TriangleMesh.cpp:332-340, 379-391: the loop over k (x, y, z). *)
  Fixpoint soa_axes (src : list T) (pos ts w k : nat) : option (list T) :=
    match k with
    | O => Some []
    | S k' => obind (gather src pos ts w) (fun xs => option_map (app xs) (soa_axes src (pos + 1) ts w k'))
    end.
  (** TriangleMesh.cpp:330-342, 377-393: the loop over j (v0, v1, v2). *)
  Fixpoint soa_verts (src : list T) (pos vs w j : nat) : option (list T) :=
    match j with
    | O => Some []
    | S j' => obind (soa_axes src pos (vs * 3) w 3) (fun xs => option_map (app xs) (soa_verts src (pos + vs) vs w j'))
    end.
  (** TriangleMesh.cpp:328-344, 375-395: the loop over groups of W triangles, run numTris / W times; vertexData moves on by the three
      vertices of the inner loop and by (W - 1) triangles. *)
  Fixpoint soa_groups (src : list T) (pos vs w g : nat) : option (list T) :=
    match g with
    | O => Some []
    | S g' => obind (soa_verts src pos vs w 3) (fun xs => option_map (app xs) (soa_groups src (pos + 3 * vs + (w - 1) * (vs * 3)) vs w g'))
    end.
  (** TriangleMesh.cpp:350-353, 401-404: o[j] -= o[j - d] for len values of j, in place. *)
  Fixpoint sub_range (o : list T) (j d len : nat) : option (list T) :=
    match len with
    | O => Some o
    | S len' => obind (nth_error o j) (fun x => obind (nth_error o (j - d)) (fun y => sub_range (update o j (x - y)) (j + 1) d len'))
    end.
  (** TriangleMesh.cpp:346-356, 397-407 (SOA_HAS_EDGES, defined at line 36): the second and third corner become edges from the first. *)
  Fixpoint edge_groups (o : list T) (p w g : nat) : option (list T) :=
    match g with
    | O => Some o
    | S g' => obind (sub_range o (p + 3 * w) (3 * w) (3 * w)) (fun o1 =>
              obind (sub_range o1 (p + 6 * w) (6 * w) (3 * w)) (fun o2 => edge_groups o2 (p + 9 * w) w g'))
    end.
  (** TriangleMesh.cpp:312-357 [SetSoA4] (w = 4), 359-408 [SetSoA8] (w = 8).  Simplified: the floats of the buffer that are never written
      (triangles beyond the last full group) are left out of the list. *)
  Definition SetSoA (w : nat) (src : list T) (numTris vtxSizeBytes : nat) : option mesh :=
    let vs := (vtxSizeBytes / floatBytes)%nat in
    obind (soa_groups src 0 vs w (numTris / w)) (fun o =>
    obind (edge_groups o 0 w (numTris / w)) (fun o => Some (Mesh o numTris 12))).

  (** TriangleMesh.cpp:40-168 [simdCapability]. *)
  Inductive simd := SIMD_NONE | SIMD_SSE | SIMD_SSE2 | SIMD_SSE41 | SIMD_AVX.
  (** TriangleMesh.cpp:221-231 [Set]: the SIMD branches pass the members numTriangles and vertexSizeBytes, not the arguments. *)
  Definition Mesh_Set (cap : simd) (m : mesh) (src : list T) (numTris vtxSizeBytes : nat) : option mesh :=
    match cap with
    | SIMD_AVX => SetSoA 8 src (m_num m) (m_vsize m)
    | SIMD_SSE41 | SIMD_SSE2 => SetSoA 4 src (m_num m) (m_vsize m)
    | _ => SetAoS src numTris vtxSizeBytes
    end.
  (** TriangleMesh.cpp:207-219 [SetConvex], after the triangulation: copies of a triangle with all coordinates minus infinity are appended until
      the count is a multiple of the lane count; then [Set]. *)
  Definition pad_triangles (align : nat) (ts : list (triangle T)) : list (triangle T) :=
    let degen := V3 (- ninf) (- ninf) (- ninf) in
    ts ++ repeat (Tri degen degen degen) ((align - length ts mod align) mod align)%nat.

  (** sizeof(Triangle) / sizeof(float) = 9 with vec = float3: [tris[i]] after the cast of TriangleMesh.cpp:420. *)
  Definition read_tri (data : list T) (p : nat) : option (triangle T) :=
    match skipn p data with
    | ax :: ay :: az :: bx :: by_ :: bz :: cx :: cy :: cz :: _ => Some (Tri (V3 ax ay az) (V3 bx by_ bz) (V3 cx cy cz))
    | _ => None
    end.
  (** What the ray queries write: the distance, and the index and barycentric coordinates of the triangle hit, if they were written at all. *)
  Definition hit_result : Type := (T * option (nat * T * T))%type.
  (** TriangleMesh.cpp:421-433: the loop; the stride is always that of a Triangle.  A FLOAT_INF from IntersectLineTri never passes the test. *)
  Fixpoint cpp_loop (ray : ray T) (data : list T) (p i n : nat) (st : hit_result) : option hit_result :=
    match n with
    | O => Some st
    | S n' =>
      obind (read_tri data p) (fun t =>
      cpp_loop ray data (p + 9) (i + 1) n'
        (match IntersectLineTri (rpos ray) (rdir ray) (tri_a t) (tri_b t) (tri_c t) with
         | Some (d, u, v) => if (d >=? n0) && (d <? fst st) then (d, Some (i, u, v)) else st
         | None => st
         end))
    end.
  (** TriangleMesh.cpp:410-436 [IntersectRay_TriangleIndex_UV_CPP]. *)
  Definition IntersectRay_CPP (m : mesh) (ray : ray T) : option hit_result :=
    cpp_loop ray (m_data m) 0 0 (m_num m) (ninf, None).

  (** One lane of nearestD, nearestU, nearestV, nearestIndex; [None] is the index -1. *)
  Record lane := Lane { l_d : T; l_u : T; l_v : T; l_i : option nat }.
  (** TriangleMesh_IntersectRay_SSE.inl:43-50, TriangleMesh_IntersectRay_AVX.inl:41-48. *)
  Definition lane_init : lane := Lane ninf ninf ninf None.
  (** TriangleMesh_IntersectRay_SSE.inl:104-204, TriangleMesh_IntersectRay_AVX.inl:100-172, seen by one lane (every instruction used acts lane by lane).
      [rcp] is the approximate reciprocal _mm_rcp_ps / _mm256_rcp_ps, [flat] the test of |det| against epsilon (<= in the SSE code, < in the AVX
      code).  A comparison with NaN is false, and a lane with a false mask takes the new values. *)
  Definition lane_step (rcp : T -> T) (flat : T -> T -> bool) (ray : ray T) (i : nat) (v0x v0y v0z e1x e1y e1z e2x e2y e2z : T) (near : lane) : lane :=
    let dX := vx (rdir ray) in let dY := vy (rdir ray) in let dZ := vz (rdir ray) in
    let epsilon := nlit 1%Z 10000%positive in
    let px := dY * e2z - dZ * e2y in
    let py := dZ * e2x - dX * e2z in
    let pz := dX * e2y - dY * e2x in
    let det := e1x * px + e1y * py + e1z * pz in
    let recipDet := rcp det in
    let tx := vx (rpos ray) - v0x in
    let ty := vy (rpos ray) - v0y in
    let tz := vz (rpos ray) - v0z in
    let u := (tx * px + ty * py + tz * pz) * recipDet in
    let qx := ty * e1z - tz * e1y in
    let qy := tz * e1x - tx * e1z in
    let qz := tx * e1y - ty * e1x in
    let v := (dX * qx + dY * qy + dZ * qz) * recipDet in
    let t := (e2x * qx + e2y * qy + e2z * qz) * recipDet in
    let out := flat (nabs det) epsilon || (u <? n0) || (u >? n1) || (v <? n0) || (u + v >? n1) || (t <? n0) || (t >=? l_d near) in
    if out then near else Lane t u v (Some i).
  (** TriangleMesh_IntersectRay_SSE.inl:72-83, AVX.inl:69-81: the nine loads of a group, as lane l sees them. *)
  Definition lane_load (data : list T) (p w l c : nat) : option T := nth_error data (p + c * w + l).
  (** TriangleMesh_IntersectRay_SSE.inl:72-204, AVX.inl:69-172: one group of W triangles, lane by lane. *)
  Fixpoint lanes_step (rcp : T -> T) (flat : T -> T -> bool) (ray : ray T) (data : list T) (p w i l : nat) (lanes : list lane) : option (list lane) :=
    match lanes with
    | [] => Some []
    | near :: rest =>
      let ld := lane_load data p w l in
      obind (ld 0%nat) (fun v0x => obind (ld 1%nat) (fun v0y => obind (ld 2%nat) (fun v0z =>
      obind (ld 3%nat) (fun e1x => obind (ld 4%nat) (fun e1y => obind (ld 5%nat) (fun e1z =>
      obind (ld 6%nat) (fun e2x => obind (ld 7%nat) (fun e2y => obind (ld 8%nat) (fun e2z =>
      option_map (cons (lane_step rcp flat ray i v0x v0y v0z e1x e1y e1z e2x e2y e2z near)) (lanes_step rcp flat ray data p w i (l + 1) rest))))))))))
    end.
  (** TriangleMesh_IntersectRay_SSE.inl:70-207, AVX.inl:67-175: the loop over groups, run numTriangles / W times. *)
  Fixpoint ray_groups (rcp : T -> T) (flat : T -> T -> bool) (ray : ray T) (data : list T) (p w i g : nat) (lanes : list lane) : option (list lane) :=
    match g with
    | O => Some lanes
    | S g' => obind (lanes_step rcp flat ray data p w i 0 lanes) (ray_groups rcp flat ray data (p + 9 * w) w (i + w) g')
    end.
  (** TriangleMesh_IntersectRay_SSE.inl:218-229, AVX.inl:191-204: the smallest lane.  An index of -1 never passes the comparison. *)
  Fixpoint reduce (l : nat) (lanes : list lane) (st : hit_result) : hit_result :=
    match lanes with
    | [] => st
    | a :: rest => reduce (l + 1) rest (if l_d a <? fst st then (l_d a, Some ((match l_i a with Some i => i + l | None => l - 1 end)%nat, l_u a, l_v a)) else st)
    end.
  (** TriangleMesh_IntersectRay_SSE.inl:20-247 (w = 4), TriangleMesh_IntersectRay_AVX.inl:23-221 (w = 8). *)
  Definition IntersectRay_SoA (w : nat) (rcp : T -> T) (flat : T -> T -> bool) (m : mesh) (ray : ray T) : option hit_result :=
    option_map (fun lanes => reduce 0 lanes (ninf, None)) (ray_groups rcp flat ray (m_data m) 0 w 0 (m_num m / w) (repeat lane_init w)).
  (** TriangleMesh.cpp:274-292 [IntersectRay_TriangleIndex_UV]; 233-272 [IntersectRay], [IntersectRay_TriangleIndex] return parts of it. *)
  Definition Mesh_IntersectRay (rcp : T -> T) (cap : simd) (m : mesh) (ray : ray T) : option hit_result :=
    match cap with
    | SIMD_AVX => IntersectRay_SoA 8 rcp nltb m ray
    | SIMD_SSE41 | SIMD_SSE2 => IntersectRay_SoA 4 rcp nleb m ray
    | _ => IntersectRay_CPP m ray
    end.
End TriMesh.
Arguments mesh : clear implicits.
Arguments lane : clear implicits.
Arguments hit_result : clear implicits.
