(** Sphere (/repo/src/Geometry/Sphere.h, Sphere.cpp), scalar build.

    Optional output pointers are modelled as always given.  Not modelled here: strings, [IsFinite], [BitEquals], the
    normals and UVs of [Triangulate], and the overloads for Polygon, Polyhedron, Frustum and OBB (see ObbModel.v and ShapeSetModel.v), which loop over the corner
    points exactly as the AABB ones do.  [Distance] and [Intersects] of the other primitives forward to them
    (Sphere.cpp:397-435, 463-466, 614-647) and are modelled there. *)
From Coq Require Import ZArith Bool List.
From Verif Require Import Num ScalarModel Vec3Model GeoTypes MatModel AabbModel LineModel RotModel PlaneModel.
Import ListNotations.

Section Sphere.
  Context {T : Type} `{NT : Num T}.
  Local Open Scope num_scope.
  Implicit Types (s : sphere T) (p q v : vec T).

  (** Sphere.cpp:76-79 [Translate], 81-86, 88-93 [Transform] (the scale is taken from the first column), 103-106 [Transform(Quat)]. *)
  Definition Sphere_Translate s v : sphere T := Sph (vadd (spos s) v) (srad s).
  Definition Sphere_Transform3 s (m : mat3 T) : sphere T := Sph (mulv m (spos s)) (srad s * Length (col0 m)).
  Definition Sphere_Transform34 s (m : mat34 T) : sphere T :=
    Sph (mulpos34 m (spos s)) (srad s * Length (col0 (lin34 m))).
  Definition Sphere_TransformQuat s (q : quat T) : sphere T := Sph (mulv (FromQuat q) (spos s)) (srad s).
  (** Sphere.cpp:108-113 [MinimalEnclosingAABB], 115-122 [MaximalContainedAABB]. *)
  Definition Sphere_MinimalEnclosingAABB s : aabb T := AABB_FromSphere s.
  Definition Sphere_MaximalContainedAABB s : aabb T :=
    let recipSqrt3 := n1 / nsqrt (nlit 3 1) in
    let halfSideLength := srad s * recipSqrt3 in
    AABB_SetFromCenterAndSize (spos s) (V3 halfSideLength halfSideLength halfSideLength).
  (** Sphere.h:100 [Diameter]; Sphere.cpp:140-152 [ExtremePoint], 154-159 [ProjectToAxis], 166-169 [IsDegenerate] (on finite
      positions). *)
  Definition Sphere_Diameter s : T := n2 * srad s.
  Definition Sphere_ExtremePoint s (direction : vec T) : vec T :=
    let len := Length direction in vadd (spos s) (vmuls direction (srad s / len)).
  Definition Sphere_ExtremePointDist s (direction : vec T) : vec T * T :=
    let e := Sphere_ExtremePoint s direction in (e, Dot e direction).
  Definition Sphere_ProjectToAxis s (direction : vec T) : T * T :=
    let d := Dot direction (spos s) in (d - srad s, d + srad s).
  Definition Sphere_IsDegenerate s : bool := negb (srad s >? n0).

  (** Sphere.cpp:177-185 [Contains(point)] without and with epsilon; 187-203 segment, triangle, polygon; 205-212 AABB;
      242-256 sphere and capsule. *)
  Definition Sphere_Contains s p : bool := DistanceSq (spos s) p <=? srad s * srad s.
  Definition Sphere_ContainsEps s p (epsilon : T) : bool := DistanceSq (spos s) p <=? srad s * srad s + epsilon.
  Definition Sphere_ContainsSeg s (l : segment T) : bool := Sphere_Contains s (seg_a l) && Sphere_Contains s (seg_b l).
  Definition Sphere_ContainsTri s (t : triangle T) : bool :=
    Sphere_Contains s (tri_a t) && Sphere_Contains s (tri_b t) && Sphere_Contains s (tri_c t).
  Definition Sphere_ContainsPolygon s (vertices : list (vec T)) : bool := forallb (Sphere_Contains s) vertices.
  Definition Sphere_ContainsAABB s (b : aabb T) : bool := forallb (fun i => Sphere_Contains s (AABB_CornerPoint b i)) (seq 0 8).
  Definition Sphere_ContainsSphere s (o : sphere T) : bool := Distance (spos s) (spos o) + srad o <=? srad s.
  Definition Sphere_ContainsSphereEps s (o : sphere T) (epsilon : T) : bool :=
    Distance (spos s) (spos o) + srad o - srad s <=? epsilon.
  Definition Sphere_ContainsCapsule s (c : capsule T) : bool :=
    (Distance (spos s) (seg_a (cap_l c)) + cap_r c <=? srad s) && (Distance (spos s) (seg_b (cap_l c)) + cap_r c <=? srad s).

  (** Sphere.cpp:387-395 [Distance], 437-440 [MaxDistance], 442-447 [ClosestPoint]. *)
  Definition Sphere_Distance s p : T := Max n0 (Distance (spos s) p - srad s).
  Definition Sphere_DistanceSphere s (o : sphere T) : T := Max n0 (Distance (spos s) (spos o) - srad s - srad o).
  Definition Sphere_MaxDistance s p : T := Distance p (spos s) + srad s.
  Definition Sphere_ClosestPoint s p : vec T :=
    let d := Distance (spos s) p in
    let t := if d >=? srad s then srad s else d in
    vadd (spos s) (vmuls (vsub p (spos s)) (t / d)).
  (** Sphere.cpp:449-456 [Intersect(Plane)] ([Plane::ClosestPoint(point)] is [Project], Plane.h), 458-461 [Intersects(Sphere)]. *)
  Definition Sphere_IntersectPlane s (P : plane T) : circle T :=
    let cpos := Plane_Project P (spos s) in
    Circ cpos (pnormal P) (nsqrt (srad s * srad s - DistanceSq cpos (spos s))).
  Definition Sphere_IntersectsSphere s (o : sphere T) : bool :=
    LengthSq (vsub (spos s) (spos o)) <=? (srad s + srad o) * (srad s + srad o).

  (** Sphere.cpp:468-541 [IntersectLine]: the number of intersections and the two parameters ([None]: no intersection, where
      t1 and t2 are set to plus and minus infinity). *)
  Definition Sphere_IntersectLine (linePos lineDir sphereCenter : vec T) (sphereRadius : T) : option (nat * T * T) :=
    let a := vsub linePos sphereCenter in
    let radSq := sphereRadius * sphereRadius in
    let C := Dot a a - radSq in
    let B := n2 * Dot a lineDir in
    let D := B * B - nlit 4 1 * C in
    if D <? n0 then None
    else if D <? nlit 1 10000 then let t := - B * nhalf in Some (1%nat, t, t)
    else let D := nsqrt D in Some (2%nat, (- B - D) * nhalf, (- B + D) * nhalf).
  (** Sphere.cpp:543-568 [Intersects(Ray)], 570-588 [Intersects(Line)], 590-612 [Intersects(LineSegment)]: the returned number, the
      intersection point, and [d], [d2]; [None] for the return value 0.  (For a ray that misses, the C++ goes on with t1
      infinite and returns 0 as well.) *)
  Definition Sphere_IntersectsRay s (r : ray T) : option (nat * vec T * T * T) :=
    match Sphere_IntersectLine (rpos r) (rdir r) (spos s) (srad s) with
    | None => None
    | Some (n, t1, t2) =>
        let t1 := if (t1 <? n0) && Nat.eqb n 2 then t2 else t1 in
        if t1 <? n0 then None else Some (n, vadd (rpos r) (smulv t1 (rdir r)), t1, t2)
    end.
  Definition Sphere_IntersectsLine s (l : line T) : option (nat * vec T * T * T) :=
    match Sphere_IntersectLine (lpos l) (ldir l) (spos s) (srad s) with
    | None => None
    | Some (n, t1, t2) => Some (n, vadd (lpos l) (smulv t1 (ldir l)), t1, t2)
    end.
  Definition Sphere_IntersectsSeg s (l : segment T) : option (nat * vec T * T * T) :=
    match Sphere_IntersectLine (seg_a l) (Seg_Dir l) (spos s) (srad s) with
    | None => None
    | Some (n, t1, t2) =>
        let lineLength := Seg_Length l in
        if (t2 <? n0) || (t1 >? lineLength) then None
        else Some (n, Seg_GetPoint l (t1 / lineLength), t1 / lineLength, t2 / lineLength)
    end.

  (** Sphere.cpp:649-672 [Enclose(point)] (default epsilon Sphere.h:296). *)
  Definition Sphere_Enclose_eps s p (epsilon : T) : sphere T :=
    let d := vsub p (spos s) in
    let dist2 := LengthSq d in
    if dist2 + epsilon >? srad s * srad s then
      let dist := nsqrt dist2 in
      let halfDist := (dist - srad s) * nhalf in
      Sph (vadd (spos s) (vdivs (vmuls d halfDist) dist)) (srad s + (halfDist + nlit 1 10000))
    else s.
  Definition Sphere_Enclose s p : sphere T := Sphere_Enclose_eps s p (nlit 1 10000).
  (** Sphere.cpp:674-680 the sort key, 704-722 [Sphere_Enclose_pts] and 726-743 the template [Sphere_Enclose<T, n>]: sorts by the
      squared distance from the original centre and encloses the farthest first.  [std::sort] leaves the order of equally
      distant points open; the model keeps them in one order, and the theorems are about every order ([Sphere_EncloseAll]). *)
  Fixpoint insertFar (key : vec T -> T) (p : vec T) (l : list (vec T)) : list (vec T) :=
    match l with [] => [p] | q :: r => if key q <? key p then p :: l else q :: insertFar key p r end.
  Definition farthestFirst s (pts : list (vec T)) : list (vec T) :=
    fold_right (insertFar (fun p => DistanceSq (spos s) p)) [] pts.
  Definition Sphere_EncloseAll s (pts : list (vec T)) : sphere T := fold_left Sphere_Enclose pts s.
  Definition Sphere_EnclosePts s (pts : list (vec T)) : sphere T := Sphere_EncloseAll s (farthestFirst s pts).
  (** Sphere.cpp:745-750 [Enclose(AABB)], 791-794 [Enclose(Triangle)], 771-783 [Enclose(LineSegment)], 759-769 [Enclose(Sphere)],
      811-830 [Enclose(Capsule)] (Capsule.cpp:185-193 [SphereA], [SphereB]). *)
  Definition Sphere_EncloseAABB s (b : aabb T) : sphere T := Sphere_EnclosePts s (map (AABB_CornerPoint b) (seq 0 8)).
  Definition Sphere_EncloseTri s (t : triangle T) : sphere T := Sphere_EnclosePts s [tri_a t; tri_b t; tri_c t].
  Definition Sphere_EncloseSeg s (l : segment T) : sphere T :=
    if DistanceSq (spos s) (seg_a l) >? DistanceSq (spos s) (seg_b l) then Sphere_Enclose (Sphere_Enclose s (seg_a l)) (seg_b l)
    else Sphere_Enclose (Sphere_Enclose s (seg_b l)) (seg_a l).
  Definition Sphere_EncloseSphere s (o : sphere T) : sphere T :=
    let toFarthestPoint := ScaledToLength (vsub (spos o) (spos s)) (srad o) in
    let s1 := Sphere_Enclose s (vadd (spos o) toFarthestPoint) in
    Sphere_Enclose s1 (vsub (spos o) toFarthestPoint).
  Definition Sphere_EncloseCapsule s (c : capsule T) : sphere T :=
    let A := Sph (seg_a (cap_l c)) (cap_r c) in let B := Sph (seg_b (cap_l c)) (cap_r c) in
    let da := DistanceSq (spos s) (seg_a (cap_l c)) in
    let db := DistanceSq (spos s) (seg_b (cap_l c)) in
    if da >? db then Sphere_EncloseSphere (Sphere_EncloseSphere s A) B else Sphere_EncloseSphere (Sphere_EncloseSphere s B) A.
  (** Sphere.cpp:832-842 [ExtendRadiusToContain] (default epsilon 1e-4, Sphere.h:311-312). *)
  Definition Sphere_ExtendRadius s p (epsilon : T) : sphere T :=
    let requiredRadius := Distance (spos s) p + epsilon in Sph (spos s) (Max (srad s) requiredRadius).
  Definition Sphere_ExtendRadiusSphere s (o : sphere T) (epsilon : T) : sphere T :=
    let requiredRadius := Distance (spos s) (spos o) + srad o + epsilon in Sph (spos s) (Max (srad s) requiredRadius).
  (** Sphere.cpp:258-296 [FastEnclosingSphere] ([None]: no points, the sphere of radius minus infinity). *)
  Definition Sphere_FastEnclosing (pts : list (vec T)) : option (sphere T) :=
    match pts with
    | [] => None
    | p0 :: _ =>
        let '(minx, maxx, miny, maxy, minz, maxz) := AABB_ExtremePointsAlongAABB pts in
        let at_ i := nth i pts p0 in
        let dist2x := DistanceSq (at_ minx) (at_ maxx) in
        let dist2y := DistanceSq (at_ miny) (at_ maxy) in
        let dist2z := DistanceSq (at_ minz) (at_ maxz) in
        let '(mn, mx) :=
          if (dist2y >? dist2x) && (dist2y >? dist2z) then (miny, maxy)
          else if (dist2z >? dist2x) && (dist2z >? dist2y) then (minz, maxz) else (minx, maxx) in
        let pos := vmuls (vadd (at_ mn) (at_ mx)) nhalf in
        Some (fold_left Sphere_Enclose pts (Sph pos (Distance (at_ mn) pos)))
    end.

  (** Sphere.cpp:326 [sEpsilon]; 986-1001 [OptimalEnclosingSphere] of two points (= [FitThroughPoints], Sphere.h:214). *)
  Definition sEpsilon : T := nlit 1 10000.
  Definition Sphere_Optimal2 (a b : vec T) : sphere T :=
    let pos := vmuls (vadd a b) nhalf in Sph pos (Length (vsub b pos) + sEpsilon).
  (** Sphere.cpp:1015-1082 [FitSphereThroughPoints] for three points, 1098-1168 for four: the coordinates of the centre relative
      to the edges, [None] on failure. *)
  Definition FitSphere3 (ab ac : vec T) : option (T * T) :=
    let BB := Dot ab ab in let CC := Dot ac ac in let BC := Dot ab ac in
    let denom := BB * CC - BC * BC in
    if EqualAbs denom n0 (nlit 5 1000) then None
    else
      let denom := nhalf / denom in
      Some ((CC * BB - BC * CC) * denom, (CC * BB - BC * BB) * denom).
  Definition FitSphere4 (ab ac ad : vec T) : option (T * T * T) :=
    let BB := Dot ab ab in let BC := Dot ab ac in let BD := Dot ab ad in
    let CC := Dot ac ac in let CD := Dot ac ad in let DD := Dot ad ad in
    let '(success, m) := InverseSymmetric (mk3 BB BC BD BC CC CD BD CD DD) in
    if negb success then None
    else let v := mulv m (V3 (BB * nhalf) (CC * nhalf) (DD * nhalf)) in Some (vx v, vy v, vz v).
  (** Sphere.cpp:1171-1234: three points. *)
  Definition Sphere_Optimal3 (a b c : vec T) : sphere T :=
    let ab := vsub b a in let ac := vsub c a in
    let areCollinear := LengthSq (Cross ab ac) <? nlit 1 10000 in
    let fit := if negb areCollinear then FitSphere3 ab ac else None in
    let box :=
      let minPt := vMin (vMin a b) c in let maxPt := vMax (vMax a b) c in
      let pos := vmuls (vadd minPt maxPt) nhalf in Sph pos (Distance pos minPt) in
    let through (p q o : vec T) :=
      let pos := vmuls (vadd p q) nhalf in Sph pos (Max (Distance p q * nhalf) (Distance o pos)) in
    let sph :=
      match fit with
      | None => box
      | Some (s, t) =>
          if (Abs s >? nlit 10000 1) || (Abs t >? nlit 10000 1) then box
          else if s <? n0 then through a c b
          else if t <? n0 then through a b c
          else if s + t >? n1 then through b c a
          else
            let center := vadd (smulv s ab) (smulv t ac) in
            let pos := vadd a center in
            Sph pos (nsqrt (Max3 (DistanceSq pos a) (DistanceSq pos b) (DistanceSq pos c)))
      end in
    Sph (spos sph) (srad sph + n2 * sEpsilon).
  (** Sphere.cpp:1237-1304: four points. *)
  Definition Sphere_Optimal4 (a b c d : vec T) : sphere T :=
    let ab := vsub b a in let ac := vsub c a in let ad := vsub d a in
    let outside :=
      let s1 := Sphere_Optimal3 a b c in
      if Sphere_Contains s1 d then s1
      else let s2 := Sphere_Optimal3 a b d in
        if Sphere_Contains s2 c then s2
        else let s3 := Sphere_Optimal3 a c d in
          if Sphere_Contains s3 b then s3
          else let s4 := Sphere_Optimal3 b c d in Sph (spos s4) (Max (srad s4) (Distance a (spos s4) + nlit 1 1000)) in
    let sph :=
      match FitSphere4 ab ac ad with
      | None => outside
      | Some (s, t, u) =>
          if (s <? n0) || (t <? n0) || (u <? n0) || (s + t + u >? n1) then outside
          else
            let center := vadd (vadd (smulv s ab) (smulv t ac)) (smulv u ad) in
            let pos := vadd a center in
            Sph pos (nsqrt (Max4 (DistanceSq pos a) (DistanceSq pos b) (DistanceSq pos c) (DistanceSq pos d)))
      end in
    Sph (spos sph) (srad sph + n2 * sEpsilon).
  (** Sphere.cpp:1306-1337: five points and the index of one that can be dropped. *)
  Definition Sphere_Optimal5 (a b c d e : vec T) : sphere T * nat :=
    let s := Sphere_Optimal4 b c d e in
    if Sphere_ContainsEps s a sEpsilon then (s, 0%nat)
    else let s := Sphere_Optimal4 a c d e in
      if Sphere_ContainsEps s b sEpsilon then (s, 1%nat)
      else let s := Sphere_Optimal4 a b d e in
        if Sphere_ContainsEps s c sEpsilon then (s, 2%nat)
        else let s := Sphere_Optimal4 a b c e in
          if Sphere_ContainsEps s d sEpsilon then (s, 3%nat)
          else (Sphere_Optimal4 a b c d, 4%nat).
  (** Sphere.cpp:1340-1366, 1369-1391 [FitThroughPoints] ([None]: the degenerate sphere of NaNs). *)
  Definition Sphere_Fit3 (a b c : vec T) : option (sphere T) :=
    let ab := vsub b a in let ac := vsub c a in
    match FitSphere3 ab ac with
    | None => None
    | Some (s, t) => let p := vadd (smulv s ab) (smulv t ac) in Some (Sph (vadd a p) (Length p))
    end.
  Definition Sphere_Fit4 (a b c d : vec T) : option (sphere T) :=
    let ab := vsub b a in let ac := vsub c a in let ad := vsub d a in
    match FitSphere4 ab ac ad with
    | None => None
    | Some (s, t, u) =>
        let center := vadd (vadd (smulv s ab) (smulv t ac)) (smulv u ad) in Some (Sph (vadd a center) (Length center))
    end.

  (** Sphere.cpp:328-385 [OptimalEnclosingSphere] of an array of at least five points: the state of the loop, one iteration at
      index [i] (new state and next index: restarting sets i to 0, which the loop header then increments), and the loop, bounded
      by fuel ([None]: still running).  [sp] holds the indices of the four supporting points, [ex] the flags [expendable]. *)
  Record opt_state := OptSt { os_sp : list nat; os_ex : list bool; os_s : sphere T }.
  Definition opt_at (pts : list (vec T)) (i : nat) : vec T := nth i pts vzero.
  Definition opt_start (pts : list (vec T)) : opt_state :=
    OptSt [0%nat; 1%nat; 2%nat; 3%nat] [true; true; true; true]
          (Sphere_Optimal4 (opt_at pts 0) (opt_at pts 1) (opt_at pts 2) (opt_at pts 3)).
  Fixpoint set_nth {A : Type} (l : list A) (i : nat) (x : A) : list A :=
    match l, i with
    | [], _ => []
    | _ :: r, O => x :: r
    | y :: r, S i => y :: set_nth r i x
    end.
  Definition opt_step (pts : list (vec T)) (st : opt_state) (i : nat) : opt_state * nat :=
    let sp := os_sp st in let ex := os_ex st in let s := os_s st in
    if existsb (Nat.eqb i) sp then (st, S i)
    else if DistanceSq (opt_at pts i) (spos s) >? srad s * srad s + sEpsilon then
      let P k := opt_at pts (nth k sp 0%nat) in
      let '(s, redundant) := Sphere_Optimal5 (P 0%nat) (P 1%nat) (P 2%nat) (P 3%nat) (opt_at pts i) in
      if negb (Nat.eqb redundant 4) && (Nat.ltb (nth redundant sp 0%nat) i || nth redundant ex false) then
        let sp := set_nth sp redundant i in
        let ex := set_nth ex redundant false in
        let ex := map (fun '(k, e) => if Nat.ltb k i then true else e) (combine sp ex) in
        (OptSt sp ex s, 1%nat)
      else (OptSt sp ex s, S i)
    else (st, S i).
  Fixpoint opt_loop (fuel : nat) (pts : list (vec T)) (st : opt_state) (i : nat) : option (sphere T) :=
    if Nat.ltb i (length pts) then
      match fuel with
      | O => None
      | S f => let '(st, i) := opt_step pts st i in opt_loop f pts st i
      end
    else Some (os_s st).
  Definition Sphere_OptimalMany (fuel : nat) (pts : list (vec T)) : option (sphere T) := opt_loop fuel pts (opt_start pts) 4.
  (** The dispatch on the number of points (331-339); [None] also for no points, where the C++ returns an uninitialised sphere. *)
  Definition Sphere_Optimal (fuel : nat) (pts : list (vec T)) : option (sphere T) :=
    match pts with
    | [] => None
    | [a] => Some (Sph a n0)
    | [a; b] => Some (Sphere_Optimal2 a b)
    | [a; b; c] => Some (Sphere_Optimal3 a b c)
    | [a; b; c; d] => Some (Sphere_Optimal4 a b c d)
    | _ => Sphere_OptimalMany fuel pts
    end.

  (** Sphere.cpp:844-933 [Triangulate], positions only: the triangles left in the queue, each relative to the centre.  [temp]
      and [oldEnd] are the queue (its part from oldEnd on); the loop is bounded by fuel, and [numVertices] iterations are
      always enough. *)
  Definition Sphere_Diamond (r : T) (ccwIsFrontFacing : bool) : list (triangle T) :=
    let xp := V3 r n0 n0 in let xn := V3 (- r) n0 n0 in
    let yp := V3 n0 r n0 in let yn := V3 n0 (- r) n0 in
    let zp := V3 n0 n0 r in let zn := V3 n0 n0 (- r) in
    if ccwIsFrontFacing then
      [Tri yp xp zp; Tri xp yp zn; Tri yn zp xp; Tri yn xp zn; Tri zp xn yp; Tri yp xn zn; Tri yn xn zp; Tri xn yn zn]
    else
      [Tri yp zp xp; Tri xp zn yp; Tri yn xp zp; Tri yn zn xp; Tri zp yp xn; Tri yp zn xn; Tri yn zp xn; Tri xn zn yn].
  Definition Sphere_Subdivide (r : T) (cur : triangle T) : list (triangle T) :=
    let a := ScaledToLength (vmuls (vadd (tri_a cur) (tri_b cur)) nhalf) r in
    let b := ScaledToLength (vmuls (vadd (tri_a cur) (tri_c cur)) nhalf) r in
    let c := ScaledToLength (vmuls (vadd (tri_b cur) (tri_c cur)) nhalf) r in
    [Tri (tri_a cur) a b; Tri (tri_b cur) c a; Tri (tri_c cur) b c; Tri a c b].
  Fixpoint tri_loop (fuel : nat) (r : T) (numVertices : nat) (queue : list (triangle T)) : list (triangle T) :=
    match fuel with
    | O => queue
    | S f =>
        if Nat.leb ((length queue + 3) * 3) numVertices then
          match queue with
          | [] => []
          | cur :: rest => tri_loop f r numVertices (rest ++ Sphere_Subdivide r cur)
          end
        else queue
    end.
  Definition Sphere_Triangulate s (numVertices : nat) (ccwIsFrontFacing : bool) : list (vec T) :=
    if Nat.ltb numVertices 24 then []
    else
      flat_map (fun t => [vadd (spos s) (tri_a t); vadd (spos s) (tri_b t); vadd (spos s) (tri_c t)])
        (tri_loop numVertices (srad s) numVertices (Sphere_Diamond (srad s) ccwIsFrontFacing)).

  (** Sphere.cpp:935-953 [RandomPointInside], 955-974 [RandomPointOnSurface].  [draw] is the sequence of results of the calls to
      [lcg.Float(-r, r)], respectively [lcg.FloatNeg1_1()]. *)
  Fixpoint random_inside (tries k : nat) s (draw : nat -> T) : vec T :=
    match tries with
    | O => spos s
    | S n =>
        let v := V3 (draw k) (draw (k + 1)%nat) (draw (k + 2)%nat) in
        if LengthSq v <=? srad s * srad s then vadd (spos s) v else random_inside n (k + 3)%nat s draw
    end.
  Definition Sphere_RandomPointInside s (draw : nat -> T) : vec T := random_inside 1000 0 s draw.
  Fixpoint random_surface (tries k : nat) s (draw : nat -> T) : vec T :=
    match tries with
    | O => vadd (spos s) (V3 (srad s) n0 n0)
    | S n =>
        let v := V3 (draw k) (draw (k + 1)%nat) (draw (k + 2)%nat) in
        let lenSq := LengthSq v in
        if (lenSq >=? nlit 1 1000000) && (lenSq <=? n1) then vadd (spos s) (smulv (srad s / nsqrt lenSq) v)
        else random_surface n (k + 3)%nat s draw
    end.
  Definition Sphere_RandomPointOnSurface s (draw : nat -> T) : vec T := random_surface 1000 0 s draw.

  (** Sphere.cpp:130-138 [Volume], [SurfaceArea], for a given constant [pi]. *)
  Definition Sphere_Volume (pi : T) s : T := nlit 4 1 * pi * srad s * srad s * srad s / nlit 3 1.
  Definition Sphere_SurfaceArea (pi : T) s : T := nlit 4 1 * pi * srad s * srad s.
End Sphere.
