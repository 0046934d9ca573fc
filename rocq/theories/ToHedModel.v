(** Conversions to Polyhedron: AABB.cpp:113-148, OBB.cpp:183-213, Frustum.cpp:988-1027, Polygon.cpp:910-922, Triangle.cpp:282-294,
    and Frustum::Volume, which is computed from the conversion. *)
From Coq Require Import ZArith Bool List.
From Verif Require Import Num ScalarModel Vec3Model GeoTypes MatModel AabbModel LineModel RotModel PlaneModel ObbModel FrustumModel TriangleModel PolygonModel PolyTopoModel PolyhedronModel.
Import ListNotations.

(** AABB.cpp:123-131 and OBB.cpp:194-202: the table of face indices. *)
Definition boxTable : list face := [[0; 1; 3; 2]; [4; 6; 7; 5]; [0; 4; 5; 1]; [7; 6; 2; 3]; [0; 2; 6; 4]; [1; 5; 7; 3]]%Z.
(** Frustum.cpp:1000-1008: the table of face indices in the order near, far, left, right, top, bottom. *)
Definition frustumTable : list face := [[0; 4; 6; 2]; [1; 3; 7; 5]; [0; 2; 3; 1]; [4; 5; 7; 6]; [7; 3; 2; 6]; [0; 1; 5; 4]]%Z.

Section ToHed.
  Context {T : Type} `{TT : NumTrig T}.

  (** AABB.cpp:113-148 [ToPolyhedron]: the eight corners and the table.  The [assume]s at the end do nothing in this build. *)
  Definition AABB_ToPolyhedron (b : aabb T) : polyhedron T := Hed (map (AABB_CornerPoint b) (seq 0 8)) boxTable.
  (** OBB.cpp:183-213 [ToPolyhedron]. *)
  Definition OBB_ToPolyhedron (o : obb T) : polyhedron T := Hed (map (OBB_CornerPoint o) (seq 0 8)) boxTable.
  (** Frustum.cpp:988-1027 [ToPolyhedron]: a left-handed frustum reads every row of the table backwards. *)
  Definition Frustum_ToPolyhedron (f : frustum T) : polyhedron T :=
    Hed (map (Frustum_CornerPoint f) (seq 0 8))
        (map (fun row => match fhand f with FrustumLeftHanded => map (fun v => nth (3 - v) row 0%Z) (seq 0 4) | _ => map (fun v => nth v row 0%Z) (seq 0 4) end) frustumTable).
  (** Frustum.cpp:704-707 [Volume]. *)
  Definition Frustum_Volume (f : frustum T) : option T := Hed_Volume (Frustum_ToPolyhedron f).
  (** Polygon.cpp:910-922 [ToPolyhedron]: the vertices, and two faces with the indices in both directions. *)
  Definition Poly_ToPolyhedron (ps : list (vec T)) : polyhedron T :=
    let n := length ps in Hed ps [map Z.of_nat (seq 0 n); map (fun i => (Z.of_nat n - 1 - Z.of_nat i)%Z) (seq 0 n)].
  (** Triangle.cpp:282-289 [ToPolygon], 291-294 [ToPolyhedron]. *)
  Definition Tri_ToPolygon (t : triangle T) : list (vec T) := [tri_a t; tri_b t; tri_c t].
  Definition Tri_ToPolyhedron (t : triangle T) : polyhedron T := Poly_ToPolyhedron (Tri_ToPolygon t).
End ToHed.
